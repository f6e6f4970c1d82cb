(** tree/indextree: trees sharing one memory do not touch each other. *)
From Verif Require Import Base Bind Machine OrderSpec SMapSpec AvlTree AvlModel AvlSpec IndexSpec IndexPoolSpec IndexModel IndexHeapModel IndexPoolModel.
From Verif Require Import IndexHeapProofs IndexHeapReadProofs IndexHeapStepProofs IndexHeapRunProofs IndexHeapFrameProofs IndexHeapProps.
From Verif Require IndexProofs.
Local Open Scope Z_scope.

(** ** put_at *)
Lemma put_at_length {X} (l : list X) : forall i x, length (put_at i x l) = length l.
Proof. induction l as [|y l IH]; intros [|i] x; cbn [put_at length]; auto. Qed.
Lemma put_at_eq {X} (l : list X) : forall i x y, nth_error l i = Some y -> nth_error (put_at i x l) i = Some x.
Proof. induction l as [|z l IH]; intros [|i] x y H; cbn in *; try discriminate; [reflexivity|eauto]. Qed.
Lemma put_at_ne {X} (l : list X) : forall i j x, i <> j -> nth_error (put_at i x l) j = nth_error l j.
Proof. induction l as [|z l IH]; intros [|i] [|j] x H; cbn in *; try reflexivity; [congruence|]. apply IH. congruence. Qed.
Lemma put_at_in {X} (l : list X) : forall i x y, In y (put_at i x l) -> y = x \/ In y l.
Proof.
  induction l as [|z l IH]; intros [|i] x y H; cbn in *; try tauto.
  - destruct H as [<-|H]; auto.
  - destruct H as [<-|H]; [auto|]. destruct (IH _ _ _ H); auto.
Qed.

Lemma put_at_same {X} (l : list X) : forall i x, nth_error l i = Some x -> put_at i x l = l.
Proof. induction l as [|z l IH]; intros [|i] x H; cbn in *; try discriminate; [congruence|]. rewrite IH; auto. Qed.
Lemma put_at_nodup {X} (l : list X) : forall i x y, NoDup l -> nth_error l i = Some y -> x = y \/ ~ In x l -> NoDup (put_at i x l).
Proof.
  intros i x y Hn Hi [->|Hx]; [rewrite (put_at_same _ _ _ Hi); exact Hn|]. revert i Hi.
  induction l as [|z l IH]; intros [|i] Hi; cbn in *; try discriminate; apply NoDup_cons_iff in Hn as (H1 & H2).
  - apply NoDup_cons; tauto.
  - apply NoDup_cons; [|apply IH; tauto]. intros H. apply put_at_in in H as [->|H]; tauto.
Qed.
Lemma nth_app {X} (l : list X) x i y : nth_error (l ++ [x]) i = Some y -> nth_error l i = Some y \/ (i = length l /\ y = x).
Proof.
  destruct (Nat.lt_ge_cases i (length l)) as [H|H]; [rewrite nth_error_app1 by exact H; auto|]. rewrite nth_error_app2 by exact H.
  destruct (i - length l)%nat as [|n] eqn:En; cbn; [|destruct n; discriminate]. intros E0. injection E0 as ->. right. split; [lia|reflexivity].
Qed.
Lemma nth_last {X} (l : list X) x : nth_error (l ++ [x]) (length l) = Some x.
Proof. rewrite nth_error_app2 by lia. rewrite Nat.sub_diag. reflexivity. Qed.
Lemma nth_lt {X} (l : list X) i x : nth_error l i = Some x -> (i < length l)%nat.
Proof. intros H. apply nth_error_Some. congruence. Qed.

Section One.
  Context {K A : Type}.
  Notation mem := (mem K (option A)).
  Notation M := (@IndexHeapModel.M K (option A)).
  Implicit Types m : mem.

  (** ** two trees with different roots share no node *)
  Lemma climbs_one m r1 r2 : Parent m r1 = None -> Parent m r2 = None -> forall n1 n2 a, climbs m r1 n1 a -> climbs m r2 n2 a -> r1 = r2.
  Proof.
    intros P1 P2. induction n1 as [|n1 IH]; intros n2 a C1 C2; cbn [climbs] in C1.
    - subst a. destruct n2 as [|n2]; [exact C2|]. destruct C2 as (b & C2 & _). congruence.
    - destruct C1 as (b & B1 & C1). destruct n2 as [|n2]; [cbn in C2; congruence|]. destruct C2 as (b' & B2 & C2).
      assert (b' = b) by congruence. subst b'. eapply IH; eauto.
  Qed.
  Lemma in_place s a : In a (addrs s) -> exists c l r, s = plug c (B a l r).
  Proof.
    induction s as [|b l IHl r IHr]; cbn [addrs]; [intros []|]. intros [<-|H]; [exists [], l, r; reflexivity|].
    apply in_app_or in H as [H|H].
    - destruct (IHl H) as (c & x & y & ->). exists (c ++ [(b, false, r)]), x, y. rewrite plug_app. reflexivity.
    - destruct (IHr H) as (c & x & y & ->). exists (c ++ [(b, true, l)]), x, y. rewrite plug_app. reflexivity.
  Qed.
  Lemma ok_climbs m r s a : ok m r [] s -> a = r \/ In a (addrs s) -> exists n, climbs m r n a.
  Proof.
    intros O [->|H]; [exists 0%nat; reflexivity|]. destruct (in_place s a H) as (c & l & q & ->). pose proof (proj2 (ok_plug _ _ _ _) O) as O1.
    exact (cok_climbs m r c _ a (ok_c _ _ _ _ O1) (ok_h _ _ _ _ O1)).
  Qed.
  Lemma disjoint m r1 s1 r2 s2 a : ok m r1 [] s1 -> ok m r2 [] s2 -> Parent m r1 = None -> Parent m r2 = None ->
    (a = r1 \/ In a (addrs s1)) -> (a = r2 \/ In a (addrs s2)) -> r1 = r2.
  Proof.
    intros O1 O2 P1 P2 H1 H2. destruct (ok_climbs m r1 s1 a O1 H1) as (n1 & C1). destruct (ok_climbs m r2 s2 a O2 H2) as (n2 & C2).
    exact (climbs_one m r1 r2 P1 P2 n1 n2 a C1 C2).
  Qed.

  (** ** what a tree owns *)
  Definition Rs (r : nat) : nat -> Prop := fun a => a = r.
  Definition Ns (s : sh) : nat -> Prop := fun a => In a (addrs s).
  Lemma body_down m s : body m s -> forall a d, In a (addrs s) -> match Children m a d with None => True | Some b => In b (addrs s) end.
  Proof.
    induction s as [|b l IHl r IHr]; intros Hb a d Ha; [destruct Ha|]. destruct Hb as (Kl & Kr & _ & _ & Bl & Br). cbn [addrs] in *.
    destruct Ha as [<-|Ha].
    - destruct d; [rewrite Kr; destruct r|rewrite Kl; destruct l]; cbn [pt]; try exact I; right; apply in_or_app; cbn [addrs]; auto using in_eq.
    - apply in_app_or in Ha as [Ha|Ha]; [specialize (IHl Bl a d Ha)|specialize (IHr Br a d Ha)]; destruct (Children m a d); auto; right; apply in_or_app; auto.
  Qed.
  Lemma body_up m p s : body m s -> hangs m p s -> forall a, In a (addrs s) -> match Parent m a with None => True | Some b => In b (addrs s) \/ b = p end.
  Proof.
    revert p. induction s as [|b l IHl r IHr]; intros p Hb Hh a Ha; [destruct Ha|]. destruct Hb as (Kl & Kr & Pl & Pr & Bl & Br). cbn [addrs hangs] in *.
    destruct Ha as [<-|Ha]; [rewrite Hh; auto|].
    apply in_app_or in Ha as [Ha|Ha]; [specialize (IHl b Bl Pl a Ha)|specialize (IHr b Br Pr a Ha)].
    - destruct (Parent m a) as [q|]; [|exact I]. left. destruct IHl as [H| ->]; [right; apply in_or_app; auto|left; reflexivity].
    - destruct (Parent m a) as [q|]; [|exact I]. left. destruct IHr as [H| ->]; [right; apply in_or_app; auto|left; reflexivity].
  Qed.
  Lemma ok_inv m r s : ok m r [] s -> Parent m r = None -> inv (Rs r) (Ns s) m.
  Proof.
    intros O P. pose proof (ok_c _ _ _ _ O) as (Cl & Cr). constructor.
    - intros a ->. exact P.
    - intros a Ha. pose proof (body_up m r s (ok_b _ _ _ _ O) (ok_h _ _ _ _ O) a Ha) as X. destruct (Parent m a) as [b|]; [|exact I]. exact X.
    - intros a d [Ha| ->].
      + pose proof (body_down m s (ok_b _ _ _ _ O) a d Ha) as X. destruct (Children m a d); exact X.
      + destruct d; [rewrite Cr; exact I|rewrite Cl]. destruct s; [exact I|left; reflexivity].
    - intros a Ha ->. pose proof (ok_n _ _ _ _ O) as X. apply NoDup_cons_iff in X as (X & _). apply X. exact Ha.
  Qed.
  (** a tree none of whose nodes is changed *)
  Lemma ok_same m m' r s : ok m r [] s -> (next m <= next m')%nat -> (forall a, a = r \/ In a (addrs s) -> same_at m m' a) ->
    ok m' r [] s /\ view m' s = view m s /\ Parent m' r = Parent m r.
  Proof.
    intros O Hn H. assert (Hb : forall q, (forall a, In a (addrs q) -> same_at m m' a) -> body m q -> body m' q).
    { induction q as [|b l IHl r0 IHr]; intros Hs; [auto|]. cbn [body]. intros (Kl & Kr & Pl & Pr & Bl & Br).
      assert (Hb : same_at m m' b) by (apply Hs; left; reflexivity). destruct Hb as (_ & Hc & _). rewrite !Hc.
      assert (Hl : forall a, In a (addrs l) -> same_at m m' a) by (intros a Ha; apply Hs; right; apply in_or_app; auto).
      assert (Hr : forall a, In a (addrs r0) -> same_at m m' a) by (intros a Ha; apply Hs; right; apply in_or_app; auto).
      split; [exact Kl|]. split; [exact Kr|]. split.
      { destruct l as [|x ? ?]; [exact I|]. cbn [hangs] in *. destruct (Hl x (or_introl eq_refl)) as (Hp & _). rewrite Hp. exact Pl. }
      split; [|auto]. destruct r0 as [|x ? ?]; [exact I|]. cbn [hangs] in *. destruct (Hr x (or_introl eq_refl)) as (Hp & _). rewrite Hp. exact Pr. }
    assert (Hv : forall q, (forall a, In a (addrs q) -> same_at m m' a) -> view m' q = view m q).
    { induction q as [|b l IHl r0 IHr]; intros Hs; [reflexivity|]. cbn [view].
      assert (Hb' : same_at m m' b) by (apply Hs; left; reflexivity). destruct Hb' as (_ & _ & H1 & _ & H2 & H3). rewrite H1, H2, H3, IHl, IHr; [reflexivity| |];
      intros a Ha; apply Hs; right; apply in_or_app; auto. }
    assert (Hrt : same_at m m' r) by auto. destruct Hrt as (Hp & Hc & _).
    split; [|split; [apply Hv; auto|exact Hp]]. destruct O as [O1 O2 O3 O4 O5]. constructor.
    - cbn [cok] in *. rewrite !Hc. exact O1.
    - destruct s as [|x ? ?]; [exact I|]. cbn [hangs top] in *. destruct (H x ltac:(right; left; reflexivity)) as (Hx & _). rewrite Hx. exact O2.
    - apply Hb; auto.
    - exact O4.
    - intros a Ha. specialize (O5 a Ha). lia.
  Qed.

  (** ** what one call changes *)
  Record framed m r s m' r' : Prop := {
    fr_next : (next m <= next m')%nat;
    fr_root : Parent m' r' = None;
    fr_fresh : r' = r \/ r' = next m;
    fr_same : forall a, a <> r -> ~ In a (addrs s) -> (a < next m)%nat -> same_at m m' a }.
  Definition quiet {X} (e : M X) : Prop := forall m, match e m with Ret _ m' | Panic m' => m' = m | Loop => True end.
  Lemma q_bind {X Y} (e : M X) (f : X -> M Y) : quiet e -> (forall x, quiet (f x)) -> quiet (bind e f).
  Proof.
    intros H1 H2 m. specialize (H1 m). unfold bind. destruct (e m) as [x m1|m1|]; [|exact H1|exact I]. subst m1. apply H2.
  Qed.
  Lemma q_rd {X} (f : mem -> nat -> X) p : quiet (rd f p).
  Proof. intros m. destruct p; reflexivity. Qed.
  Lemma q_ret {X} (x : X) : quiet (ret x).
  Proof. intros m. reflexivity. Qed.
  Lemma q_traverasl go n : forall cur seen, quiet (traverasl go n cur seen).
  Proof.
    induction n as [|n IH]; intros cur seen; [intros m; exact I|]. cbn [traverasl]. destruct (isNil cur); [apply q_ret|].
    apply q_bind; [apply q_rd|]. intros l. apply q_bind; [apply IH|]. intros sc. destruct (negb (snd sc)); [apply q_ret|].
    apply q_bind; [apply q_rd|]. intros k. apply q_bind; [apply q_rd|]. intros v. cbv zeta. destruct (negb (go _)); [apply q_ret|].
    apply q_bind; [apply q_rd|]. intros r. apply IH.
  Qed.
  Lemma q_Traverse root go : quiet (Traverse root go).
  Proof.
    unfold Traverse. apply q_bind; [apply q_rd|]. intros cur. apply q_bind; [|intros sc; apply q_ret]. intros m. apply q_traverasl.
  Qed.
  Section Call.
  Context (m : mem) (r : nat) (s : sh) (O : ok m r [] s) (P : Parent m r = None).
  Lemma root_next : r <> next m.
  Proof. pose proof (ok_l _ _ _ _ O r (or_introl eq_refl)). lia. Qed.
  Lemma near_framed m' : inv (Rs r) (Ns s) m' -> near (Rs r) (Ns s) m m' -> framed m r s m' r.
  Proof. intros H1 [H2 H3]. constructor; [lia|exact (inv_root _ _ _ H1 r eq_refl)|auto|]. intros a A1 A2 A3. apply H3; auto. Qed.
  Lemma call_keeps {X} (e : M X) Q (f : X -> ix_out K A) m' r' x : keeps (Rs r) (Ns s) e Q -> answer r e f m = Some ((m', r'), x) -> framed m r s m' r'.
  Proof.
    intros H E0. specialize (H m (ok_inv m r s O P)). unfold answer in E0. destruct (e m) as [y m1|m1|]; [| |discriminate]; injection E0 as <- <- _;
    apply near_framed; apply H.
  Qed.
  Lemma call_grows {X} (e : M X) (f : X -> ix_out K A) m' r' x : grows (Rs r) (Ns s) e -> answer r e f m = Some ((m', r'), x) -> framed m r s m' r'.
  Proof.
    intros H E0. specialize (H m (ok_inv m r s O P) (fun q => root_next (eq_sym q))). unfold answer in E0.
    assert (Hf : forall m1, grown (Rs r) (Ns s) m m1 -> framed m r s m1 r).
    { intros m1 ([B1 B2] & B3). constructor; [exact B1| |auto|].
      - destruct B3 as [B3|B3]; exact (inv_root _ _ _ B3 r eq_refl).
      - intros a A1 A2 A3. apply B2; auto. intros ->. lia. }
    destruct (e m) as [y m1|m1|]; [| |discriminate]; injection E0 as <- <- _; apply Hf; exact H.
  Qed.
  Lemma grown2_framed m' : grown2 (Rs r) (Ns s) m m' -> framed m r s m' r /\ framed m r s m' (next m).
  Proof.
    intros ([B1 B2] & B3 & B4). assert (Hs : forall a, a <> r -> ~ In a (addrs s) -> (a < next m)%nat -> same_at m m' a).
    { intros a A1 A2 A3. apply B2; auto. intros ->. lia. }
    split; (constructor; [lia| |auto|exact Hs]); apply (inv_root _ _ _ B3); [left|right]; reflexivity.
  Qed.
  Lemma fresh_next : ~ Ns s (next m).
  Proof. intros H. pose proof (ok_l _ _ _ _ O (next m) (or_intror H)). lia. Qed.
  Lemma split_framed cmp zero contain k :
    match Split cmp zero r contain k m with
    | Ret (Some x) m' => framed m r s m' r /\ framed m r s m' x /\ x = next m
    | Ret None m' | Panic m' => framed m r s m' r
    | Loop => True end.
  Proof.
    pose proof (s_Split (Rs r) (Ns s) r eq_refl cmp zero contain k m (ok_inv m r s O P) fresh_next) as X.
    destruct (Split cmp zero r contain k m) as [[x|] m1|m1|]; [| | |exact I].
    - destruct X as (X & ->). apply grown2_framed in X. tauto.
    - apply near_framed; apply X.
    - destruct X as [X|X]; [apply near_framed; apply X|apply grown2_framed, X].
  Qed.
  Lemma call_framed cmp shift zero o m' r' x : hstep cmp shift zero (m, r) o = Some ((m', r'), x) -> framed m r s m' r'.
  Proof.
    destruct o; cbn [hstep]; intros H.
    20: { pose proof (split_framed cmp zero contain k) as X. destruct (Split cmp zero r contain k m) as [[y|] m1|m1|]; [| | |discriminate].
          - destruct X as (X1 & X2 & ->). unfold answer in H.
            destruct rgt; [pose proof (q_Traverse r (fun _ => true) m1) as Q; destruct (Traverse r _ m1)|pose proof (q_Traverse (next m) (fun _ => true) m1) as Q; destruct (Traverse (next m) _ m1)];
              try discriminate; injection H as <- <- _; subst; assumption.
          - injection H as <- <- _. exact X.
          - injection H as <- <- _. exact X. }
    all: first [eapply call_grows; [|exact H]; first [apply g_Put; exact eq_refl|apply g_Set; exact eq_refl|apply g_Upsert; exact eq_refl]
               |eapply call_keeps; [|exact H]; first [apply f_Get; exact eq_refl|apply f_Remove; exact eq_refl|apply f_treeSize; exact eq_refl|apply f_Clear; exact eq_refl
                  |apply f_Values; exact eq_refl|apply f_Traverse; exact eq_refl|apply f_Index; exact eq_refl|apply f_IndexOf; exact eq_refl|eapply f_RemoveIndex; first [exact cmp|exact eq_refl]
                  |apply f_RemoveRange; exact eq_refl|apply f_RemoveRangeByIndex; exact eq_refl|apply f_Trim; exact eq_refl|apply f_TrimByIndex; exact eq_refl]].
  Qed.
  End Call.
End One.

Section Pool.
  Context {K A : Type} (ltb : K -> K -> bool) (W : weak_order ltb) (cmp : K -> K -> Z) (Hcmp : plain_cmp ltb cmp)
          (shift : Z) (Hsh : 0 <= shift) (zero : K).
  Notation V := (option A).
  Notation mem := (mem K (option A)).
  Notation tree := (tree K V).
  Notation XRel := (@IndexProofs.XRel K A ltb).
  Notation pstep := (@pstep K A cmp shift zero).
  Notation apart := (@apart K A cmp shift).
  Implicit Types m : mem.

  Record prel m (rs : list nat) (ts : list tree) : Prop := {
    pr_len : length ts = length rs;
    pr_one : forall i r t, nth_error rs i = Some r -> nth_error ts i = Some t -> rep m r t /\ Parent m r = None;
    pr_nd : NoDup rs }.
  Record erel (ts : list tree) (es : list (list (K * V))) : Prop := {
    er_len : length es = length ts;
    er_one : forall i t e, nth_error ts i = Some t -> nth_error es i = Some e -> XRel t e }.

  Lemma rep_lt m r t : rep m r t -> (r < next m)%nat.
  Proof. intros (s & O & _). apply (ok_l _ _ _ _ O). left. reflexivity. Qed.
  Lemma pr_lt m rs ts r : prel m rs ts -> In r rs -> (r < next m)%nat.
  Proof.
    intros [H1 H2 _] Hr. apply In_nth_error in Hr as (i & Hi). destruct (nth_error ts i) as [t|] eqn:Et.
    - destruct (H2 i r t Hi Et) as (Hx & _). exact (rep_lt _ _ _ Hx).
    - apply nth_error_None in Et. apply nth_lt in Hi. lia.
  Qed.
  (** the other trees after a call *)
  Lemma others m rs ts i r s t m' r' j rj tj : prel m rs ts -> nth_error rs i = Some r -> ok m r [] s -> view m s = t -> Parent m r = None ->
    framed m r s m' r' -> j <> i -> nth_error rs j = Some rj -> nth_error ts j = Some tj ->
    exists sj, ok m rj [] sj /\ view m sj = tj /\ (forall a, a = rj \/ In a (addrs sj) -> same_at m m' a).
  Proof.
    intros [H1 H2 H3] Hi O Hv P F Hj Hr Ht. destruct (H2 j rj tj Hr Ht) as ((sj & Oj & Vj) & Pj). exists sj. split; [exact Oj|]. split; [exact Vj|].
    assert (Hne : r <> rj). { intros ->. apply Hj. eapply (proj1 (NoDup_nth_error rs) H3); [apply (nth_lt _ _ _ Hr)|congruence]. }
    intros a Ha. apply (fr_same _ _ _ _ _ F).
    - intros ->. apply Hne. apply (disjoint m r s rj sj r O Oj P Pj); auto.
    - intros Hs. apply Hne. apply (disjoint m r s rj sj a O Oj P Pj); auto.
    - apply (ok_l _ _ _ _ Oj). destruct Ha as [->|Ha]; [left; reflexivity|right; exact Ha].
  Qed.
  Lemma prel_put m rs ts i r s t m' r' t' : prel m rs ts -> nth_error rs i = Some r -> ok m r [] s -> view m s = t -> Parent m r = None ->
    framed m r s m' r' -> rep m' r' t' -> prel m' (put_at i r' rs) (put_at i t' ts).
  Proof.
    intros H Hi O Hv P F Hr. pose proof H as [H1 H2 H3]. constructor.
    - rewrite !put_at_length. exact H1.
    - intros j rj tj Hj Tj. destruct (Nat.eq_dec i j) as [<-|Hne].
      + rewrite (put_at_eq _ _ _ _ Hi) in Hj. injection Hj as <-. apply nth_lt in Hi. destruct (nth_error ts i) as [t0|] eqn:Et; [|apply nth_error_None in Et; lia].
        rewrite (put_at_eq _ _ _ _ Et) in Tj. injection Tj as <-. split; [exact Hr|exact (fr_root _ _ _ _ _ F)].
      + rewrite put_at_ne in Hj by exact Hne; rewrite put_at_ne in Tj by exact Hne. destruct (others m rs ts i r s t m' r' j rj tj H Hi O Hv P F ltac:(congruence) Hj Tj) as (sj & Oj & Vj & Sj).
        destruct (H2 j rj tj Hj Tj) as (_ & Pj). destruct (ok_same m m' rj sj Oj (fr_next _ _ _ _ _ F) Sj) as (B1 & B2 & B3). split; [|congruence].
        exists sj. split; [exact B1|congruence].
    - eapply put_at_nodup; [exact H3|exact Hi|]. destruct (fr_fresh _ _ _ _ _ F) as [->| ->]; [auto|]. right. intros Hx. pose proof (pr_lt m rs ts _ H Hx). lia.
  Qed.
  Lemma prel_new m rs ts r t : prel m rs ts -> rep m r t -> Parent m r = None -> ~ In r rs -> prel m (rs ++ [r]) (ts ++ [t]).
  Proof.
    intros [H1 H2 H3] Hr P Hn. constructor.
    - rewrite !app_length. cbn. lia.
    - intros i ri ti Hi Ti. apply nth_app in Hi as [Hi|(Hi & ->)]; apply nth_app in Ti as [Ti|(Ti & ->)]; eauto.
      + apply nth_lt in Hi. lia.
      + apply nth_lt in Ti. lia.
    - apply nodup_app. split; [exact H3|]. split; [constructor; [tauto|constructor]|]. intros x Hx [<-|[]]. contradiction.
  Qed.
  Lemma prel_same m rs ts m' : prel m rs ts -> (next m <= next m')%nat -> (forall a, (a < next m)%nat -> same_at m m' a) -> prel m' rs ts.
  Proof.
    intros [H1 H2 H3] Hn Hs. constructor; [exact H1| |exact H3]. intros i r t Hi Ti. destruct (H2 i r t Hi Ti) as ((s & O & Hv) & P).
    destruct (ok_same m m' r s O Hn) as (B1 & B2 & B3).
    - intros a Ha. apply Hs. apply (ok_l _ _ _ _ O). destruct Ha as [->|Ha]; [left; reflexivity|right; exact Ha].
    - split; [|congruence]. exists s. split; [exact B1|congruence].
  Qed.

  Lemma erel_put ts es i t e : erel ts es -> XRel t e -> erel (put_at i t ts) (put_at i e es).
  Proof.
    intros [H1 H2] H. constructor; [rewrite !put_at_length; exact H1|]. intros j tj ej Tj Ej. destruct (Nat.eq_dec i j) as [<-|Hne].
    - pose proof (nth_lt _ _ _ Tj) as L1. pose proof (nth_lt _ _ _ Ej) as L2. rewrite put_at_length in L1. rewrite put_at_length in L2.
      destruct (nth_error ts i) as [t0|] eqn:Et; [|apply nth_error_None in Et; lia]. destruct (nth_error es i) as [e0|] eqn:Ee; [|apply nth_error_None in Ee; lia].
      rewrite (put_at_eq _ _ _ _ Et) in Tj. rewrite (put_at_eq _ _ _ _ Ee) in Ej. congruence.
    - rewrite put_at_ne in Tj by exact Hne; rewrite put_at_ne in Ej by exact Hne. eauto.
  Qed.
  Lemma erel_new ts es t e : erel ts es -> XRel t e -> erel (ts ++ [t]) (es ++ [e]).
  Proof.
    intros [H1 H2] H. constructor; [rewrite !app_length; cbn; lia|]. intros i ti ei Ti Ei.
    apply nth_app in Ti as [Ti|(Ti & ->)]; apply nth_app in Ei as [Ei|(Ei & ->)]; eauto.
    + apply nth_lt in Ti. lia.
    + apply nth_lt in Ei. lia.
  Qed.

  Lemma new_ok m rs ts : prel m rs ts -> exists m' r, newTree zero m = Ret r m' /\ prel m' (rs ++ [r]) (ts ++ [E]).
  Proof.
    intros H. unfold newTree, alloc, bind, ret. cbv zeta. set (m1 := Mem _ _ _ _ _ _ _). exists m1, (next m). split; [reflexivity|].
    assert (Hs : forall a, (a < next m)%nat -> same_at m m1 a).
    { intros a Ha. unfold same_at, m1. cbn [Parent Children Size Balance Key Value]. rewrite !upd_ne by lia. auto 10. }
    apply prel_new.
    - apply (prel_same m); [exact H|unfold m1; cbn [next]; lia|exact Hs].
    - exists L. split; [|reflexivity]. constructor; cbn [cok pt hangs body caddrs addrs app]; auto.
      + unfold m1. cbn [Children]. rewrite upd_eq. auto.
      + constructor; [tauto|constructor].
      + intros a [<-|[]]. unfold m1. cbn [next]. lia.
    - unfold m1. cbn [Parent]. apply upd_eq.
    - intros Hx. pose proof (pr_lt m rs ts _ H Hx). lia.
  Qed.

  (** one call, whatever it is *)
  Lemma pool_step m rs ts es o : prel m rs ts -> erel ts es ->
    exists m' rs', pstep (m, rs) o = Some ((m', rs'), snd (apart ts o)) /\ prel m' rs' (fst (apart ts o)).
  Proof.
    intros H HE. destruct o as [|i o|i contain k]; cbn [IndexPoolModel.pstep IndexPoolModel.apart].
    - destruct (new_ok m rs ts H) as (m' & r & -> & Q). exists m', (rs ++ [r]). auto.
    - pose proof H as [H1 H2 H3]. destruct (nth_error rs i) as [r|] eqn:Hi.
      + pose proof (nth_lt _ _ _ Hi) as L1. destruct (nth_error ts i) as [t|] eqn:Ti; [|apply nth_error_None in Ti; lia].
        destruct (nth_error es i) as [e|] eqn:Ei; [|apply nth_error_None in Ei; rewrite (er_len _ _ HE) in Ei; lia].
        destruct (H2 i r t Hi Ti) as (Hr & P). pose proof Hr as (s & O & Hv).
        destruct (hstep_wild cmp shift Hsh zero m r t o Hr (proj1 (proj2 (er_one _ _ HE i t e Ti Ei)))) as (m' & r' & R & Q). rewrite R.
        exists m', (put_at i r' rs). split; [reflexivity|]. cbn [fst]. eapply prel_put; eauto. eapply call_framed; eauto.
      + apply nth_error_None in Hi. rewrite <- H1 in Hi. apply nth_error_None in Hi. rewrite Hi. exists m, rs. auto.
    - pose proof H as [H1 H2 H3]. destruct (nth_error rs i) as [r|] eqn:Hi.
      + pose proof (nth_lt _ _ _ Hi) as L1. destruct (nth_error ts i) as [t|] eqn:Ti; [|apply nth_error_None in Ti; lia].
        destruct (H2 i r t Hi Ti) as (Hr & P). pose proof Hr as (s & O & Hv).
        pose proof (Split_ok cmp zero contain k m r t Hr) as X. pose proof (split_framed m r s O P cmp zero contain k) as Y.
        destruct (IndexModel.Split cmp contain k t) as [(t1, t2)|].
        * destruct X as (m' & r2 & R & Q1 & Q2). rewrite R in *. destruct Y as (Y1 & Y2 & Y3). exists m', (rs ++ [r2]). split; [reflexivity|]. cbn [fst].
          apply prel_new; [|exact Q2|exact (fr_root _ _ _ _ _ Y2)|subst r2; intros Hx; pose proof (pr_lt m rs ts _ H Hx); lia].
          rewrite <- (put_at_same rs i r Hi). eapply prel_put; eauto.
        * rewrite X. exists m, rs. auto.
      + apply nth_error_None in Hi. rewrite <- H1 in Hi. apply nth_error_None in Hi. rewrite Hi. exists m, rs. auto.
  Qed.
  Lemma apart_step ts es o : erel ts es -> on_tree trim_in_range es o ->
    erel (fst (apart ts o)) (fst (pool_spec ltb es o)) /\ (on_tree (answered ltb) es o -> snd (apart ts o) = snd (pool_spec ltb es o)).
  Proof.
    intros H Hr. pose proof H as [H1 H2]. destruct o as [|i o|i contain k]; cbn [IndexPoolModel.apart pool_spec on_tree] in *.
    - cbn [fst snd]. split; [|auto]. apply erel_new; [exact H|]. apply IndexProofs.xrel_new.
    - destruct (nth_error ts i) as [t|] eqn:Ti; destruct (nth_error es i) as [e|] eqn:Ei; cbn [fst snd]; auto.
      + destruct (IndexProofs.step_ok ltb W cmp Hcmp shift Hsh t e o (H2 i t e Ti Ei) Hr) as (X1 & X2). split; [apply erel_put; auto|]. intros Ha. f_equal. auto.
      + apply nth_error_None in Ei. apply nth_lt in Ti. lia.
      + apply nth_error_None in Ti. apply nth_lt in Ei. lia.
    - destruct (nth_error ts i) as [t|] eqn:Ti; destruct (nth_error es i) as [e|] eqn:Ei; cbn [fst snd]; auto.
      + pose proof (H2 i t e Ti Ei) as HX. pose proof HX as (He & _).
        destruct (IndexProofs.step_ok ltb W cmp Hcmp shift Hsh t e (XSplit contain false k) HX I) as (X1 & _).
        destruct (IndexProofs.step_ok ltb W cmp Hcmp shift Hsh t e (XSplit contain true k) HX I) as (X2 & _).
        cbn [IndexModel.step ix_spec] in X1, X2. destruct (IndexModel.Split cmp contain k t) as [(t1, t2)|] eqn:Es.
        * cbn [fst snd] in X1, X2. destruct e as [|x e].
          { exfalso. destruct t as [|? ? ? l0 ?]; [discriminate|]. cbn [elems] in He. destruct (elems l0); discriminate. }
          cbv zeta in *. cbn [fst snd]. split; [|auto]. apply erel_new; [apply erel_put; [exact H|exact X1]|exact X2].
        * destruct t as [|s0 k0 v0 l0 r0].
          { cbn [elems] in He. subst e. cbn [fst snd]. auto. }
          exfalso. unfold IndexModel.Split in Es. destruct (IndexModel.goesLeft _ _ _ _); destruct (IndexModel.splitRun _ _ _ _ _); discriminate.
      + apply nth_error_None in Ei. apply nth_lt in Ti. lia.
      + apply nth_error_None in Ti. apply nth_lt in Ei. lia.
  Qed.

  Lemma pool_run ops : forall m rs ts es, prel m rs ts -> erel ts es -> pool_in_range ltb es ops ->
    run pstep (m, rs) ops = Some (srun apart ts ops) /\
    (pool_answered ltb es ops -> srun apart ts ops = srun (pool_spec ltb) es ops) /\
    exists m' rs', reach pstep (m, rs) ops = Some (m', rs') /\ prel m' rs' (sreach apart ts ops) /\ erel (sreach apart ts ops) (sreach (pool_spec ltb) es ops).
  Proof.
    induction ops as [|o ops IH]; intros m rs ts es H HE HR.
    - split; [reflexivity|]. split; [reflexivity|]. exists m, rs. auto.
    - destruct HR as (R1 & R2). destruct (pool_step m rs ts es o H HE) as (m' & rs' & S1 & S2). destruct (apart_step ts es o HE R1) as (S3 & S4).
      cbn [run srun reach sreach pool_answered]. rewrite S1. destruct (apart ts o) as (ts', x). destruct (pool_spec ltb es o) as (es', y). cbn [fst snd] in *.
      destruct (IH m' rs' ts' es' S2 S3 R2) as (X1 & X2 & X3). split; [rewrite X1; reflexivity|]. split; [|exact X3].
      intros (A1 & A2). rewrite (S4 A1), (X2 A2). reflexivity.
  Qed.
  Lemma prel0 : prel (fst (@pool0 K A zero)) (snd (@pool0 K A zero)) [].
  Proof. constructor; [reflexivity| |constructor]. intros [|i] r t H; discriminate. Qed.
  Lemma erel0 : erel [] [].
  Proof. constructor; [reflexivity|]. intros [|i] t e H; discriminate. Qed.
End Pool.
