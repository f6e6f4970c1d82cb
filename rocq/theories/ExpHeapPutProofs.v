(** experiment.Tree in memory: fixPutSize and put. *)
From Coq Require Import Permutation.
From Verif Require Import Base Bind Machine AvlTree AvlModel ExpHeapModel ExpHeapProofs ExpHeapRotProofs ExpHeapRebProofs.
From Verif Require ExpModel.
Local Open Scope Z_scope.

(** following Parent from [a] one passes the nodes [l] ([a] among them) and then is at Center *)
Inductive climbs (par : nat -> ptr) : nat -> list nat -> Prop :=
| climbs_top : climbs par 0%nat []
| climbs_up a b l : a <> 0%nat -> par a = Some b -> climbs par b l -> climbs par a (a :: l).
Lemma climbs_inj par a l : climbs par a l -> forall l', climbs par a l' -> l' = l.
Proof.
  induction 1 as [|a b l Ha Hb H IH]; intros l' H'; inversion H'; subst; try congruence. f_equal. apply IH. congruence.
Qed.
Lemma climbs_in par a l : climbs par a l -> forall c, In c l -> exists l', climbs par c l' /\ (length l' <= length l)%nat.
Proof.
  induction 1 as [|a b l Ha Hb H IH]; intros c Hc; [destruct Hc|]. destruct Hc as [<-|Hc].
  - exists (a :: l). split; [apply (climbs_up _ a b); assumption|lia].
  - destruct (IH c Hc) as (l' & C & Hl). exists l'. split; [exact C|]. cbn [length]. lia.
Qed.
Lemma climbs_nodup par a l : climbs par a l -> NoDup l.
Proof.
  induction 1 as [|a b l Ha Hb H IH]; [constructor|]. constructor; [|exact IH]. intros Hin.
  destruct (climbs_in _ _ _ H a Hin) as (l' & C & Hl). assert (C' : climbs par a (a :: l)) by (apply (climbs_up _ a b); assumption).
  pose proof (climbs_inj _ _ _ C _ C') as Q. rewrite <- Q in Hl. cbn [length] in Hl. lia.
Qed.
Lemma climbs_head par a l : climbs par a l -> a <> 0%nat -> In a l.
Proof. intros H Ha. inversion H; subst; [congruence|left; reflexivity]. Qed.
Lemma climbs_frame (par par' : nat -> ptr) a l : climbs par a l -> (forall c, In c l -> par' c = par c) -> climbs par' a l.
Proof.
  induction 1 as [|a b l Ha Hb H IH]; intros F; [constructor|]. apply (climbs_up _ a b); [exact Ha|rewrite F by (left; reflexivity); exact Hb|].
  apply IH. intros c Hc. apply F. right. exact Hc.
Qed.
Lemma climbs_leads par (dead : nat -> Prop) a p l : leads par dead a p -> climbs par p l -> exists l', climbs par a l' /\ forall c, In c l' -> c = a \/ dead c \/ In c l.
Proof.
  intros H HC. induction H as [a p H|a b p H Hb _ IH].
  - destruct (Nat.eq_dec a 0) as [->|Ha]; [exists []; split; [constructor|intros c []]|].
    exists (a :: l). split; [apply (climbs_up _ a p); assumption|]. intros c [<-|Hc]; tauto.
  - destruct (IH HC) as (l' & C & Hl). destruct (Nat.eq_dec a 0) as [->|Ha]; [exists []; split; [constructor|intros c []]|].
    exists (a :: l'). split; [apply (climbs_up _ a b); assumption|]. intros c [<-|Hc]; [tauto|]. destruct (Hl c Hc) as [->|?]; tauto.
Qed.
Lemma short (l : list nat) n : NoDup l -> (forall c, In c l -> (c < n)%nat) -> (length l <= n)%nat.
Proof. intros ND F. rewrite <- (seq_length n 0). apply NoDup_incl_length; [exact ND|]. intros c Hc. apply in_seq. specialize (F c Hc). lia. Qed.

Section Put.
  Context {K V : Type} (cmp : K -> K -> Z) (th : Z) (zero : V).
  Implicit Types m : mem K V.
  Notation tree := (tree K V).

  (** two memories that differ in the field Size only *)
  Record sizesOnly m m' : Prop := {
    o_par : Parent m' = Parent m; o_kid : Children m' = Children m; o_h : Height m' = Height m;
    o_key : Key m' = Key m; o_val : Value m' = Value m; o_next : next m' = next m }.
  Definition sizedAt m (a : nat) : Prop := Size m a = sz m (Children m a false) + sz m (Children m a true) + 1.
  (** the children of a live node are live, have it as Parent and are two; Center's left child is Center itself *)
  Definition exact m (live : nat -> Prop) : Prop :=
    Children m 0%nat false = Some 0%nat /\
    forall a e c, live a -> (a = 0%nat -> e = true) -> Children m a e = Some c -> Parent m c = Some a /\ live c /\ Children m a (negb e) <> Some c.

  Lemma fixLoop_run m a l fuel : climbs (Parent m) a l -> (length l < fuel)%nat ->
    exists m', fixLoop fuel (Some a) m = Ret tt m' /\ sizesOnly m m' /\
      forall live, exact m live -> (forall c, In c l -> live c) -> (forall c, live c -> c <> 0%nat -> In c l \/ sizedAt m c) -> forall c, live c -> c <> 0%nat -> sizedAt m' c.
  Proof.
    revert m a fuel. induction l as [|a' l IH]; intros m a fuel H Hf; (destruct fuel as [|fuel]; [cbn [length] in Hf; lia|]); inversion H; subst.
    - exists m. split; [reflexivity|]. split; [constructor; reflexivity|]. intros live _ _ HS c Hc Hc0. destruct (HS c Hc Hc0) as [[]|?]; assumption.
    - cbn [fixLoop IndexHeapModel.eqp]. destruct (Nat.eqb_spec a' 0) as [->|_]; [congruence|].
      rewrite (bind_ret _ _ _ _ _ (updateSize_run a' m)). set (m1 := setSize _ a' m).
      assert (R : rd Parent (Some a') m1 = Ret (Some b) m1) by (unfold rd, m1; cbn [setSize Parent]; congruence).
      rewrite (bind_ret _ _ _ _ _ R).
      destruct (IH m1 b fuel) as (m' & R' & [O1 O2 O3 O4 O5 O6] & HS); [exact H5|cbn [length] in Hf; lia|].
      exists m'. split; [exact R'|]. split; [constructor; [rewrite O1|rewrite O2|rewrite O3|rewrite O4|rewrite O5|rewrite O6]; reflexivity|].
      intros live HE Hl Hs. apply (HS live); [exact HE|intros c Hc; apply Hl; right; exact Hc|]. intros c Hc Hc0.
      assert (Hch : forall e q, Children m c e = Some q -> q = a' -> In c l).
      { intros e q Hq ->. destruct (proj2 HE c e a' Hc ltac:(congruence) Hq) as [HP _]. rewrite H4 in HP. injection HP as ->. apply (climbs_head (Parent m)); assumption. }
      assert (SZ : ~ In c l -> forall e, sz m1 (Children m c e) = sz m (Children m c e)).
      { intros Hn e. destruct (Children m c e) as [q|] eqn:Eq; [|reflexivity]. cbn [sz m1 setSize Size]. rewrite upd_ne; [reflexivity|]. intros ->. apply Hn. apply (Hch e a'); [exact Eq|reflexivity]. }
      destruct (in_dec Nat.eq_dec c l) as [Hi|Hi]; [left; exact Hi|right]. unfold sizedAt. change (Children m1) with (Children m). rewrite !SZ by exact Hi.
      destruct (Nat.eq_dec c a') as [->|Hne]; cbn [m1 setSize Size]; [rewrite upd_eq; reflexivity|rewrite upd_ne by exact Hne].
      destruct (Hs c Hc Hc0) as [[?|?]|?]; [congruence|contradiction|assumption].
  Qed.
  Lemma fixPutSize_run m a l : climbs (Parent m) a l -> (forall c, In c l -> (c < next m)%nat) ->
    exists m', fixPutSize (Some a) m = Ret tt m' /\ sizesOnly m m' /\
      forall live, exact m live -> (forall c, In c l -> live c) -> (forall c, live c -> c <> 0%nat -> In c l \/ sizedAt m c) -> forall c, live c -> c <> 0%nat -> sizedAt m' c.
  Proof.
    intros H F. unfold fixPutSize, fueled. apply (fixLoop_run m a l); [exact H|]. assert (length l <= next m)%nat by (apply short; [eapply climbs_nodup; exact H|exact F]). lia.
  Qed.
  Lemma place_sizes m m' dead p d s : place m dead p d s -> sizesOnly m m' -> place m' dead p d s.
  Proof. intros H [O1 O2 O3 O4 O5 O6]. apply (place_heights m); assumption. Qed.
  Lemma vw_sizes kv m m' s : sizesOnly m m' -> vw kv m' s = vw kv m s.
  Proof. intros [O1 O2 O3 O4 O5 O6]. apply vw_frame. intros c _. rewrite O3. split; reflexivity. Qed.
  Lemma eff_sizes m m' m'' p d s : eff m m' p d s -> sizesOnly m' m'' -> eff m m'' p d s.
  Proof.
    intros [F1 F2 F3 F4 F5] [O1 O2 O3 O4 O5 O6]. constructor; rewrite ?O1, ?O2, ?O3, ?O4, ?O5, ?O6; assumption.
  Qed.

  (** trees without removed nodes in them *)
  Definition none : nat -> Prop := fun _ => False.
  Lemma leads_none par a p : leads par none a p -> par a = Some p.
  Proof. intros H. inversion H; [assumption|contradiction]. Qed.
  Lemma kids_in m s a e c : kids m s -> In a (addrs s) -> Children m a e = Some c -> In c (addrs s).
  Proof.
    induction s as [|b l IHl r IHr]; intros H Ha Hc; [destruct Ha|]. cbn [kids addrs In] in *. destruct H as (H1 & H2 & H3 & H4). rewrite in_app_iff in *.
    destruct Ha as [->|[Ha|Ha]]; [|tauto|tauto]. right. destruct e; [rewrite H2 in Hc|rewrite H1 in Hc]; apply pt_in in Hc; tauto.
  Qed.
  Lemma ups_in m s p c : ups m none s p -> In c (addrs s) -> exists q, Parent m c = Some q /\ (q = p /\ pt s = Some c \/ In q (addrs s)).
  Proof.
    revert p. induction s as [|b l IHl r IHr]; intros p H Hc; [destruct Hc|]. cbn [ups addrs In pt] in *. destruct H as (H1 & H2 & H3). rewrite in_app_iff in Hc.
    destruct Hc as [->|[Hc|Hc]].
    - exists p. split; [apply leads_none; exact H1|left; split; reflexivity].
    - destruct (IHl b H2 Hc) as (q & Hq & [[-> _]|Hq']); [exists b|exists q]; (split; [exact Hq|right]); [left; reflexivity|right; apply in_app_iff; tauto].
    - destruct (IHr b H3 Hc) as (q & Hq & [[-> _]|Hq']); [exists b|exists q]; (split; [exact Hq|right]); [left; reflexivity|right; apply in_app_iff; tauto].
  Qed.
  Lemma kids_ups m s p a e c : kids m s -> ups m none s p -> NoDup (addrs s) -> In a (addrs s) -> Children m a e = Some c -> Parent m c = Some a /\ Children m a (negb e) <> Some c.
  Proof.
    revert p. induction s as [|b l IHl r IHr]; intros p H U ND Ha Hc; [destruct Ha|]. cbn [kids addrs In ups] in *. destruct H as (H1 & H2 & H3 & H4). destruct U as (U1 & U2 & U3).
    apply NoDup_cons_iff in ND as [N1 N2]. apply IndexHeapProofs.nodup_app in N2 as (N2 & N3 & N4). rewrite in_app_iff in *.
    destruct Ha as [->|[Ha|Ha]]; [|eapply IHl; eassumption|eapply IHr; eassumption].
    assert (Pl : forall q, pt l = Some q -> Parent m q = Some a) by (intros q Hq; destruct l; [discriminate|injection Hq as ->; apply leads_none, U2]).
    assert (Pr : forall q, pt r = Some q -> Parent m q = Some a) by (intros q Hq; destruct r; [discriminate|injection Hq as ->; apply leads_none, U3]).
    assert (forall q, pt l = Some q -> pt r <> Some q) by (intros q Hl Hr; apply pt_in in Hl, Hr; exact (N4 q Hl Hr)).
    destruct e; cbn [negb]; rewrite ?H1, ?H2 in *; split; try (intros Hx; eapply H; eassumption); auto.
  Qed.
  Lemma sized_at m s : kids m s -> (sized m s <-> forall a, In a (addrs s) -> sizedAt m a).
  Proof.
    induction s as [|b l IHl r IHr]; intros H; [split; [intros _ a []|constructor]|]. cbn [kids addrs In sized] in *. destruct H as (H1 & H2 & H3 & H4). rewrite (IHl H3), (IHr H4).
    split.
    - intros (A & B & C) a Ha. rewrite in_app_iff in Ha. destruct Ha as [<-|[Ha|Ha]]; [unfold sizedAt; rewrite H1, H2; exact A|apply B; exact Ha|apply C; exact Ha].
    - intros A. split; [specialize (A b (or_introl eq_refl)); unfold sizedAt in A; rewrite H1, H2 in A; exact A|]. split; intros a Ha; apply A; rewrite in_app_iff; tauto.
  Qed.

  (** moving nodes about keeps the Parent and Size fields exact *)
  Lemma moved_exact m m' (live : nat -> Prop) p d s s' : place m none p d s -> moved m m' none p d s s' ->
    live p -> (forall c, In c (addrs s) -> live c) -> (forall c, live c -> (c < next m)%nat) -> (p = 0%nat -> d = true) -> ~ In 0%nat (addrs s) -> exact m live ->
    exact m' live /\ ((forall c, live c -> c <> 0%nat -> sizedAt m c) -> forall c, live c -> c <> 0%nat -> sizedAt m' c).
  Proof.
    intros [P1 P2 P3 P4 P5 P6] [[Q1 Q2 Q3 Q4 Q5 Q6] [F1 F2 F3 F4 F5] V3 V4 V5 V6 V7 V8] Hp Hs Hlt Hd H0 [X0 X].
    apply NoDup_cons_iff in P4 as [NP ND]. apply NoDup_cons_iff in Q4 as [NP' ND'].
    assert (SS : forall c, In c (addrs s') <-> In c (addrs s)) by (intros c; split; apply Permutation_in; [exact V3|symmetry; exact V3]).
    assert (Oth : forall c, Children m p (negb d) = Some c -> ~ In c (addrs s) /\ (p <> 0%nat -> live c)).
    { intros c Hc. destruct (Nat.eq_dec p 0) as [->|Hp0]; [rewrite (Hd eq_refl) in Hc; cbn [negb] in Hc; split; [congruence|congruence]|].
      destruct (X p (negb d) c Hp ltac:(congruence) Hc) as (X1 & X2 & X3). split; [|intros _; exact X2]. intros Hi. destruct (ups_in _ _ _ _ P3 Hi) as (q & Hq & [[-> Hr]|Hq']).
      - rewrite Bool.negb_involutive in X3. congruence.
      - apply NP. congruence. }
    assert (Far : forall a e c, live a -> ~ In a (addrs s) -> a <> p -> (a = 0%nat -> e = true) -> Children m a e = Some c -> ~ In c (addrs s)).
    { intros a e c Ha Hn Hap Hae Hc Hi. destruct (X a e c Ha Hae Hc) as (X1 & _). destruct (ups_in _ _ _ _ P3 Hi) as (q & Hq & [[-> Hr]|Hq']); congruence. }
    split; [split|].
    - destruct (Nat.eq_dec p 0) as [->|Hp0]; [rewrite (Hd eq_refl) in F4; cbn [negb] in F4; congruence|]. rewrite F3; [exact X0|pose proof (P5 p (or_introl eq_refl)); lia|exact H0|congruence].
    - intros a e c Ha Hae Hc. destruct (in_dec Nat.eq_dec a (addrs s)) as [Hi|Hi]; [|destruct (Nat.eq_dec a p) as [->|Hap]].
      + assert (Hi' : In a (addrs s')) by (apply SS; exact Hi). destruct (kids_ups _ _ _ _ _ _ Q2 Q3 ND' Hi' Hc) as [A1 A2]. split; [exact A1|]. split; [|exact A2].
        apply Hs, SS. eapply kids_in; eassumption.
      + destruct (Bool.bool_dec e d) as [->|He].
        * rewrite Q1 in Hc. pose proof (pt_in _ _ Hc) as Hi'. split; [|split].
          -- destruct s'; [discriminate|]. injection Hc as ->. apply leads_none, Q3.
          -- apply Hs, SS. exact Hi'.
          -- rewrite F4. intros Hx. apply Oth in Hx. apply SS in Hi'. tauto.
        * assert (e = negb d) as -> by (destruct e, d; cbn; congruence). rewrite F4 in Hc. destruct (X p (negb d) c Hp Hae Hc) as (X1 & X2 & X3). destruct (Oth c Hc) as [O1 _].
          split; [rewrite F1; [exact X1|apply Hlt; exact X2|exact O1]|]. split; [exact X2|]. rewrite Bool.negb_involutive, Q1. intros Hx. apply pt_in in Hx. apply SS in Hx. tauto.
      + rewrite F3 in * by auto. destruct (X a e c Ha Hae Hc) as (X1 & X2 & X3). split; [|tauto]. rewrite F1; [exact X1|apply Hlt; exact X2|]. apply (Far a e); assumption.
    - intros HS. assert (SM : sized m s) by (apply sized_at; [exact P2|]; intros a Ha; apply HS; [apply Hs; exact Ha|congruence]).
      destruct (V8 SM) as [S1 S2]. assert (SA : forall a, In a (addrs s') -> sizedAt m' a) by (apply sized_at; assumption).
      intros a Ha Ha0. destruct (in_dec Nat.eq_dec a (addrs s)) as [Hi|Hi]; [apply SA, SS; exact Hi|].
      specialize (HS a Ha Ha0). unfold sizedAt in *. rewrite (V7 a Hi).
      assert (SZ : forall q, (forall c, q = Some c -> ~ In c (addrs s)) -> sz m' q = sz m q) by (intros [c|] Hq; [apply V7, Hq; reflexivity|reflexivity]).
      destruct (Nat.eq_dec a p) as [->|Hap].
      + assert (E1 : sz m' (Children m' p d) = sz m (Children m p d)) by (rewrite Q1, P1; exact S2).
        assert (E2 : sz m' (Children m' p (negb d)) = sz m (Children m p (negb d))) by (rewrite F4; apply SZ; intros c Hc; apply Oth; exact Hc).
        destruct d; cbn [negb] in E1, E2; rewrite E1, E2; exact HS.
      + rewrite F3 by auto. rewrite !SZ; [exact HS| |]; intros c Hc; eapply Far; try eassumption; congruence.
  Qed.
End Put.
