(** experiment.Tree in memory: the exported functions. *)
From Coq Require Import Permutation.
From Verif Require Import Base Bind Machine SMapSpec AvlTree AvlModel ExpHeapModel ExpHeapSpec ExpHeapProofs ExpHeapRotProofs ExpHeapRebProofs ExpHeapPutProofs ExpHeapInsProofs ExpHeapDelProofs ExpHeapRemProofs.
From Verif Require ExpModel.
Local Open Scope Z_scope.

Section Top.
  Context {K V : Type} (cmp : K -> K -> Z) (th : Z) (zero : V).
  Implicit Types m : mem K V.
  Notation tree := (tree K V).
  Notation avl := (avl K V).
  Notation htree := (htree K V).

  Definition lives (s : sh) : nat -> Prop := fun c => c = 0%nat \/ In c (addrs s).
  (** the nodes in memory are the tree; [S] is its shape *)
  Record holds m (t : tree) (dead : nat -> Prop) (S : sh) : Prop := {
    i_place : place m dead 0 true S; i_center : Children m 0%nat false = Some 0%nat; i_root : t = vw (kvof m) m S }.
  (** no node has been removed, and the fields Parent and Size are what they should be *)
  Definition clean m (dead : nat -> Prop) (S : sh) : Prop := dead = none /\ exact m (lives S) /\ allSized m (lives S).
  Definition keeps m m' : Prop := Children m' = Children m /\ Parent m' = Parent m /\ Size m' = Size m.

  Lemma exact_iff m (P Q : nat -> Prop) : (forall c, P c <-> Q c) -> exact m P -> exact m Q.
  Proof. intros H [X0 X]. split; [exact X0|]. intros a e c Ha Hae Hc. destruct (X a e c) as (X1 & X2 & X3); [apply H; exact Ha|exact Hae|exact Hc|]. split; [exact X1|split; [apply H; exact X2|exact X3]]. Qed.
  Lemma clean_keeps m m' dead S : clean m dead S -> keeps m m' -> clean m' dead S.
  Proof.
    intros (C1 & [X0 X] & C3) (H1 & H2 & H3). split; [exact C1|]. split; [split; rewrite ?H1, ?H2; assumption|]. intros c Hc Hc0. specialize (C3 c Hc Hc0). unfold sizedAt, sz in *. rewrite H1, H3. exact C3.
  Qed.
  Lemma zero_out m dead S : place m dead 0 true S -> ~ In 0%nat (addrs S).
  Proof. intros [_ _ _ P4 _ _]. apply NoDup_cons_iff in P4. tauto. Qed.
  Lemma nodup m dead p d S : place m dead p d S -> NoDup (addrs S).
  Proof. intros [_ _ _ P4 _ _]. apply NoDup_cons_iff in P4. tauto. Qed.
  Lemma enough_fuel m dead p d S : place m dead p d S -> (length (addrs S) < Datatypes.S (next m))%nat.
  Proof. intros H. enough (length (addrs S) <= next m)%nat by lia. apply short; [eapply nodup; exact H|]. intros c Hc. apply (pl_lt _ _ _ _ _ H). right. exact Hc. Qed.

  (** put from Center *)
  Lemma put_top m t dead S key : holds m t dead S ->
    match fueled (fun n => put cmp th zero n (Some 0%nat) true key) m with
    | Loop => False
    | Panic => forall hit v, ExpModel.put cmp th hit key v t false = None
    | Ret (q, ex, rb) m' => exists tg S', q = Some tg /\ In tg (addrs S') /\ place m' dead 0 true S' /\ Children m' 0%nat false = Some 0%nat /\
        (forall c, c <> tg \/ ex = true -> In c (addrs S') -> kvof m' c = kvof m c) /\ (ex = false -> kvof m' tg = (key, zero)) /\ (ex = true -> m' = m) /\
        (clean m dead S -> clean m' dead S') /\
        forall hit v, ExpModel.put cmp th hit key v t false = Some (vw (upd (kvof m) tg (if ex then hit (kvof m tg) else (key, v))) m' S', ex, rb)
    end.
  Proof.
    intros [HP HC ->]. unfold fueled.
    pose proof (put_place cmp th zero key dead (Datatypes.S (next m)) S m 0%nat true [] HP (zero_out _ _ _ HP) (climbs_top _) ltac:(intros c []) (enough_fuel _ _ _ _ _ HP)) as H.
    unfold putRel in H. cbn [negb] in H. rewrite HC in H. cbn [nonNil negb] in H.
    destruct (put cmp th zero (Datatypes.S (next m)) (Some 0%nat) true key m) as [[[q ex] rb] m'| |]; [|exact H|exact H].
    destruct H as (tg & S' & -> & HX & HF). exists tg, S'. split; [reflexivity|]. destruct ex.
    - destruct HX as (-> & -> & Hi). split; [exact Hi|]. split; [exact HP|]. split; [exact HC|]. split; [reflexivity|]. split; [discriminate|]. split; [reflexivity|]. split; [tauto|exact HF].
    - destruct HX as (-> & [Q1 Q2 Q3 Q4 Q5 Q6 Q7 Q8]).
      split; [rewrite Q3; left; reflexivity|]. split; [exact Q1|]. split; [exact (eq_trans (f_oth _ _ _ _ _ Q2) HC)|].
      split; [intros c [Hc|Hc] _; [|discriminate]; unfold kvof; destruct (Q7 c Hc) as [-> ->]; reflexivity|].
      split; [intros _; unfold kvof; rewrite Q5, Q6; reflexivity|]. split; [discriminate|]. split; [|exact HF].
      intros (C1 & C2 & C3). destruct (Q8 C1 (lives S)) as [X1 X2]; try assumption.
      + left; reflexivity.
      + intros c Hc. right. exact Hc.
      + intros c [].
      + intros c [->|Hc]; apply (pl_lt _ _ _ _ _ HP); [left; reflexivity|right; exact Hc].
      + reflexivity.
      + assert (I : forall c, lives S c \/ c = next m <-> lives S' c).
        { intros c. unfold lives. rewrite Q3. cbn [In]. split; intuition auto. }
        split; [exact C1|]. split; [eapply exact_iff; [exact I|exact X1]|]. intros c Hc. apply X2, I. exact Hc.
  Qed.

  Definition related (s : htree) (t : avl) : Prop := (exists dead S, holds (memory s) (root t) dead S) /\ ExpHeapModel.size s = AvlModel.size t.
  Definition pure (s : htree) : Prop := exists S, (exists t, holds (memory s) t none S) /\ clean (memory s) none S.

  Lemma holds_values m m' dead S : place m dead 0 true S -> Children m 0%nat false = Some 0%nat -> keeps m m' -> Height m' = Height m -> next m' = next m ->
    holds m' (vw (kvof m') m' S) dead S.
  Proof. intros HP HC (H1 & H2 & H3) HH HN. constructor; [apply (place_heights m); assumption|rewrite H1; exact HC|reflexivity]. Qed.

  (** Put: what Set, Put and InsertIfAbsent do after put *)
  Lemma set_top m t dead S key v : holds m t dead S ->
    match Set_ cmp th zero key v m with
    | Loop => False
    | Panic => ExpModel.put cmp th (fun _ => (key, v)) key v t false = None
    | Ret b m' => exists t' rb S', holds m' t' dead S' /\ (clean m dead S -> clean m' dead S') /\ ExpModel.put cmp th (fun _ => (key, v)) key v t false = Some (t', negb b, rb)
    end.
  Proof.
    intros H. unfold Set_, bind at 1. pose proof (put_top m t dead S key H) as P.
    destruct (fueled (fun n => put cmp th zero n (Some 0%nat) true key) m) as [[[q ex] rb] m1| |]; [|apply P|exact P].
    destruct P as (tg & S' & -> & Hi & HP & HC & HK & HE & HM & HCL & HF). unfold bind, wr, ret. set (m2 := setValue v tg (setKey key tg m1)).
    assert (KE : keeps m1 m2) by (repeat split). exists (vw (kvof m2) m2 S'), rb, S'. split; [apply (holds_values m1); try assumption; reflexivity|].
    split; [intros Hc; apply (clean_keeps m1); [apply HCL; exact Hc|exact KE]|]. rewrite HF, Bool.negb_involutive. f_equal. f_equal. f_equal.
    apply vw_frame. intros c Hc. split; [reflexivity|]. destruct (Nat.eq_dec c tg) as [->|Hne].
    - rewrite upd_eq. unfold kvof, m2. cbn [setValue setKey Key Value]. rewrite !upd_eq. destruct ex; reflexivity.
    - rewrite upd_ne by exact Hne. rewrite <- (HK c) by (try exact Hc; left; exact Hne). unfold kvof, m2. cbn [setValue setKey Key Value]. rewrite !upd_ne by exact Hne. reflexivity.
  Qed.
  Lemma put_top' m t dead S key v : holds m t dead S ->
    match Put cmp th zero key v m with
    | Loop => False
    | Panic => ExpModel.put cmp th (fun e => e) key v t false = None
    | Ret b m' => exists t' rb S', holds m' t' dead S' /\ (clean m dead S -> clean m' dead S') /\ ExpModel.put cmp th (fun e => e) key v t false = Some (t', negb b, rb)
    end.
  Proof.
    intros H. unfold Put, bind at 1. pose proof (put_top m t dead S key H) as P.
    destruct (fueled (fun n => put cmp th zero n (Some 0%nat) true key) m) as [[[q ex] rb] m1| |]; [|apply P|exact P].
    destruct P as (tg & S' & -> & Hi & HP & HC & HK & HE & HM & HCL & HF). unfold bind. destruct ex.
    - unfold ret. exists (vw (kvof m1) m1 S'), rb, S'. split; [constructor; auto|]. split; [exact HCL|]. rewrite HF. cbn [negb]. f_equal. f_equal. f_equal.
      apply vw_frame. intros c Hc. split; [reflexivity|]. destruct (Nat.eq_dec c tg) as [->|Hne]; [rewrite upd_eq|rewrite upd_ne by exact Hne]; symmetry; apply HK; auto.
    - unfold wr, ret. set (m2 := setValue v tg m1). assert (KE : keeps m1 m2) by (repeat split).
      exists (vw (kvof m2) m2 S'), rb, S'. split; [apply (holds_values m1); try assumption; reflexivity|].
      split; [intros Hc; apply (clean_keeps m1); [apply HCL; exact Hc|exact KE]|]. rewrite HF. cbn [negb]. f_equal. f_equal. f_equal.
      apply vw_frame. intros c Hc. split; [reflexivity|]. destruct (Nat.eq_dec c tg) as [->|Hne].
      + rewrite upd_eq. unfold kvof, m2. cbn [setValue Key Value]. rewrite !upd_eq. specialize (HE eq_refl). unfold kvof in HE. congruence.
      + rewrite upd_ne by exact Hne. rewrite <- (HK c) by (try exact Hc; left; exact Hne). unfold kvof, m2. cbn [setValue Key Value]. rewrite !upd_ne by exact Hne. reflexivity.
  Qed.
  Lemma get_top m t dead S key : holds m t dead S ->
    match (let@ root := rdKid (Some 0%nat) true in fueled (fun n => get cmp n key root)) m with
    | Loop => False
    | Panic => AvlModel.get cmp key t = None
    | Ret None m' => m' = m /\ AvlModel.get cmp key t = Some None
    | Ret (Some b) m' => m' = m /\ AvlModel.get cmp key t = Some (Some (kvof m b)) /\
        forall v, exists t', get_write cmp key v t = Some t' /\ holds (setValue v b m) t' dead S
    end.
  Proof.
    intros [HP HC ->]. pose proof (get_place cmp key (Datatypes.S (next m)) S m (pl_kids _ _ _ _ _ HP) (nodup _ _ _ _ _ HP) (enough_fuel _ _ _ _ _ HP)) as G.
    rewrite (bind_ret _ _ _ _ _ (rdKid_run 0%nat true m)). unfold fueled. rewrite (pl_pt _ _ _ _ _ HP).
    destruct (get cmp (Datatypes.S (next m)) key (pt S) m) as [[b|] m'| |]; [|exact G|exact G|exact G].
    destruct G as (-> & Hb & G1 & G2). split; [reflexivity|]. split; [exact G1|]. intros v. eexists. split; [apply G2|]. apply (holds_values m); try assumption; try reflexivity. repeat split.
  Qed.
  Lemma remove_top m t dead S key : holds m t dead S ->
    match Remove cmp th key m with
    | Loop => False
    | Panic => AvlModel.remove cmp Both th key t true = None
    | Ret v m' => exists t' rb dead' S', holds m' t' dead' S' /\ AvlModel.remove cmp Both th key t true = Some (t', v, rb)
    end.
  Proof.
    intros [HP HC ->]. pose proof (remove_place cmp th key (Datatypes.S (next m)) S m dead 0%nat false 0%nat true HP (zero_out _ _ _ HP) HC (enough_fuel _ _ _ _ _ HP)) as R.
    unfold remRel in R. unfold Remove, bind, fueled. destruct (remove cmp th (Datatypes.S (next m)) key (Some 0%nat) false true m) as [[v rb] m'| |]; [|exact R|exact R].
    destruct R as (S' & dead' & [Q1 Q2 Q3 Q4 Q5 Q6] & R). unfold ret. exists (vw (kvof m') m' S'), rb, dead', S'. split; [|exact R]. constructor; [exact Q1| |reflexivity].
    exact (eq_trans (f_oth _ _ _ _ _ Q2) HC).
  Qed.
  Lemma traverse_top m t dead S go : holds m t dead S ->
    (let@ root := rdKid (Some 0%nat) true in fueled (fun n => traverse n go root [])) m = Ret (AvlModel.traverse go t []) m.
  Proof.
    intros [HP HC ->]. rewrite (bind_ret _ _ _ _ _ (rdKid_run 0%nat true m)). unfold fueled. rewrite (pl_pt _ _ _ _ _ HP).
    apply traverse_place; [exact (pl_kids _ _ _ _ _ HP)|exact (enough_fuel _ _ _ _ _ HP)].
  Qed.

  (** one call *)
  Definition agree (s : htree) dead S (o : sm_op K V) (r : option (htree * h_out K V)) (e : option (avl * sm_out K V)) : Prop :=
    match r with
    | None => e = None
    | Some (s', HLoop) => False
    | Some (s', HOut r) => exists t' dead' S', e = Some (t', r) /\ holds (memory s') (root t') dead' S' /\ ExpHeapModel.size s' = AvlModel.size t' /\
        (removal o = false -> clean (memory s) dead S -> clean (memory s') dead' S')
    end.
  Lemma step_top (s : htree) (t : avl) dead S o : holds (memory s) (root t) dead S -> ExpHeapModel.size s = AvlModel.size t ->
    agree s dead S o (hstep cmp th zero s o) (ExpModel.step cmp th t o).
  Proof.
    intros H HS.
    assert (PUT : forall k v, match done s (Put cmp th zero k v) (fun b m => (HT m (grow s b), MBool b)) with
      | None => ExpModel.put_ cmp th t k v = None
      | Some (s', HLoop) => False
      | Some (s', HOut r) => exists t' b dead' S', r = MBool b /\ ExpModel.put_ cmp th t k v = Some (t', b) /\ holds (memory s') (root t') dead' S' /\ ExpHeapModel.size s' = AvlModel.size t' /\
          (clean (memory s) dead S -> clean (memory s') dead' S')
      end).
    { intros k v. unfold done, ExpModel.put_. pose proof (put_top' _ _ _ _ k v H) as P. destruct (Put cmp th zero k v (memory s)) as [b m| |]; [|rewrite P; reflexivity|exact P].
      destruct P as (t' & rb & S' & H1 & H2 & ->). exists (AVL t' (if negb b then AvlModel.size t else Datatypes.S (AvlModel.size t))), b, dead, S'. cbn [memory ExpHeapModel.size root AvlModel.size].
      split; [reflexivity|]. split; [rewrite Bool.negb_involutive; reflexivity|]. split; [exact H1|]. split; [unfold grow; rewrite HS; destruct b; reflexivity|exact H2]. }
    assert (SET : forall k v, match done s (Set_ cmp th zero k v) (fun b m => (HT m (grow s b), MBool b)) with
      | None => ExpModel.set cmp th t k v = None
      | Some (s', HLoop) => False
      | Some (s', HOut r) => exists t' b dead' S', r = MBool b /\ ExpModel.set cmp th t k v = Some (t', b) /\ holds (memory s') (root t') dead' S' /\ ExpHeapModel.size s' = AvlModel.size t' /\
          (clean (memory s) dead S -> clean (memory s') dead' S')
      end).
    { intros k v. unfold done, ExpModel.set. pose proof (set_top _ _ _ _ k v H) as P. destruct (Set_ cmp th zero k v (memory s)) as [b m| |]; [|rewrite P; reflexivity|exact P].
      destruct P as (t' & rb & S' & H1 & H2 & ->). exists (AVL t' (if negb b then AvlModel.size t else Datatypes.S (AvlModel.size t))), b, dead, S'. cbn [memory ExpHeapModel.size root AvlModel.size].
      split; [reflexivity|]. split; [rewrite Bool.negb_involutive; reflexivity|]. split; [exact H1|]. split; [unfold grow; rewrite HS; destruct b; reflexivity|exact H2]. }
    assert (REM : forall k, match done s (Remove cmp th k) (fun r m => (HT m (match r with Some _ => ExpHeapModel.size s - 1 | None => ExpHeapModel.size s end)%nat, MVal r)) with
      | None => AvlModel.remove_ cmp Both th t k = None
      | Some (s', HLoop) => False
      | Some (s', HOut r) => exists t' v dead' S', r = MVal v /\ AvlModel.remove_ cmp Both th t k = Some (t', v) /\ holds (memory s') (root t') dead' S' /\ ExpHeapModel.size s' = AvlModel.size t'
      end).
    { intros k. unfold done, AvlModel.remove_. pose proof (remove_top _ _ _ _ k H) as P. destruct (Remove cmp th k (memory s)) as [v m| |]; [|rewrite P; reflexivity|exact P].
      destruct P as (t' & rb & dead' & S' & H1 & ->). rewrite HS. destruct v as [v|]; (eexists; eexists; exists dead', S'; split; [reflexivity|]; split; [reflexivity|]; split; [exact H1|reflexivity]). }
    assert (GET : forall k, match Get cmp k (memory s) with
      | Loop => False
      | Panic => AvlModel.get_ cmp t k = None
      | Ret v m' => m' = memory s /\ AvlModel.get_ cmp t k = Some v
      end).
    { intros k. unfold Get, AvlModel.get_. pose proof (get_top _ _ _ _ k H) as G. unfold bind at 1. unfold bind in G at 1. destruct (rdKid (Some 0%nat) true (memory s)) as [root m0| |]; [|rewrite G; reflexivity|exact G].
      unfold bind at 1. destruct (fueled (fun n => get cmp n k root) m0) as [[b|] m'| |]; [| |rewrite G; reflexivity|exact G].
      - destruct G as (-> & -> & _). split; reflexivity.
      - destruct G as (-> & ->). split; reflexivity. }
    assert (TRV : forall go, done s (let@ root := rdKid (Some 0%nat) true in fueled (fun n => traverse n go root [])) (fun x m => (HT m (ExpHeapModel.size s), MSeen (fst x))) =
        Some (HT (memory s) (ExpHeapModel.size s), HOut (MSeen (fst (AvlModel.traverse go (root t) []))))).
    { intros go. unfold done. rewrite (traverse_top _ _ _ _ go H). reflexivity. }
    assert (SAME : forall r, agree s dead S o (Some (s, HOut r)) (Some (t, r))).
    { intros r. exists t, dead, S. split; [reflexivity|]. split; [exact H|]. split; [exact HS|tauto]. }
    assert (PUT' : forall k v, agree s dead S o (done s (Put cmp th zero k v) (fun b m => (HT m (grow s b), MBool b))) ('(s', b) <- ExpModel.put_ cmp th t k v ;; Some (s', MBool b))).
    { intros k v. specialize (PUT k v). unfold agree. destruct (done _ _ _) as [[s' [r|]]|]; [|exact PUT|rewrite PUT; reflexivity]. destruct PUT as (t' & b & dead' & S' & -> & -> & H1 & H2 & H3).
      exists t', dead', S'. split; [reflexivity|]. split; [exact H1|]. split; [exact H2|auto]. }
    assert (SET' : forall k v, agree s dead S o (done s (Set_ cmp th zero k v) (fun b m => (HT m (grow s b), MBool b))) ('(s', b) <- ExpModel.set cmp th t k v ;; Some (s', MBool b))).
    { intros k v. specialize (SET k v). unfold agree. destruct (done _ _ _) as [[s' [r|]]|]; [|exact SET|rewrite SET; reflexivity]. destruct SET as (t' & b & dead' & S' & -> & -> & H1 & H2 & H3).
      exists t', dead', S'. split; [reflexivity|]. split; [exact H1|]. split; [exact H2|auto]. }
    assert (REM' : forall k, removal o = true -> agree s dead S o (done s (Remove cmp th k) (fun r m => (HT m (match r with Some _ => ExpHeapModel.size s - 1 | None => ExpHeapModel.size s end)%nat, MVal r)))
        ('(s', r) <- AvlModel.remove_ cmp Both th t k ;; Some (s', MVal r))).
    { intros k Ho. specialize (REM k). unfold agree. destruct (done _ _ _) as [[s' [r|]]|]; [|exact REM|rewrite REM; reflexivity]. destruct REM as (t' & b & dead' & S' & -> & -> & H1 & H2).
      exists t', dead', S'. split; [reflexivity|]. split; [exact H1|]. split; [exact H2|congruence]. }
    destruct s as [m z]. cbn [memory ExpHeapModel.size] in *.
    destruct o; cbn [hstep ExpModel.step AvlModel.step memory ExpHeapModel.size].
    - apply PUT'.
    - apply PUT'.
    - apply SET'.
    - unfold done, Upsert, ExpModel.upsert. cbn [memory]. pose proof (get_top _ _ _ _ k H) as G. unfold bind at 1. unfold bind in G at 1.
      destruct (rdKid (Some 0%nat) true m) as [rt m0| |]; [|rewrite G; reflexivity|exact G].
      unfold bind at 1. destruct (fueled (fun n => get cmp n k rt) m0) as [[b|] m'| |]; [| |rewrite G; reflexivity|exact G].
      + destruct G as (-> & -> & G). cbn [nonNil]. unfold bind, wr, ret. destruct (G v) as (t' & -> & H'). cbn [agree fst snd grow].
        exists (AVL t' (AvlModel.size t)), dead, S. split; [reflexivity|]. split; [exact H'|]. split; [exact HS|]. intros _ Hc. apply (clean_keeps m); [exact Hc|repeat split].
      + destruct G as (-> & ->). cbn [nonNil]. specialize (SET' k v). unfold done, agree in SET' |- *. cbn [memory] in SET'. unfold bind. destruct (Set_ cmp th zero k v m) as [b m'| |]; [| |exact SET'].
        * destruct SET' as (t' & dead' & S' & E1 & H1 & H2 & H3). cbn [fst snd]. destruct (ExpModel.set cmp th t k v) as [[t1 b1]|]; [|discriminate]. injection E1 as -> ->.
          exists t', dead', S'. split; [reflexivity|]. split; [exact H1|]. split; [exact H2|]. intros _. apply H3. reflexivity.
        * destruct (ExpModel.set cmp th t k v) as [[t1 b1]|]; [discriminate|reflexivity].
    - specialize (GET k). unfold done. cbn [memory ExpHeapModel.size]. destruct (Get cmp k m) as [x m'| |]; [|rewrite GET; reflexivity|exact GET]. destruct GET as (-> & ->). apply SAME.
    - specialize (GET k). unfold done, contains. cbn [memory ExpHeapModel.size]. destruct (Get cmp k m) as [x m'| |]; [|rewrite GET; reflexivity|exact GET]. destruct GET as (-> & ->). apply SAME.
    - apply REM'; reflexivity.
    - apply REM'; reflexivity.
    - unfold done, wr. cbn [memory agree]. exists (clear t), none, L. split; [reflexivity|]. destruct H as [[P1 P2 P3 P4 P5 P6] HC HR].
      set (m' := setKid true None 0%nat m). assert (C1 : Children m' 0%nat true = None) by reflexivity. assert (C2 : Children m' 0%nat false = Some 0%nat) by exact HC.
      split; [|split; [reflexivity|]].
      + constructor; [|exact C2|reflexivity]. constructor; cbn [pt kids ups addrs]; try exact Logic.I; [exact C1|repeat constructor; tauto| |intros c []]. intros c [<-|[]]. apply P5. left. reflexivity.
      + intros _ _. split; [reflexivity|]. split; [split; [exact C2|]|].
        * intros a e c Ha Hae Hc. destruct Ha as [->|[]]. rewrite (Hae eq_refl), C1 in Hc. discriminate.
        * intros c [->|[]] Hc. congruence.
    - rewrite <- HS. apply SAME.
    - rewrite <- HS. apply SAME.
    - rewrite <- HS. apply SAME.
    - unfold AvlModel.values. rewrite <- HS. destruct z as [|z]; [apply SAME|]. unfold done. cbn [memory ExpHeapModel.size]. rewrite (traverse_top _ _ _ _ _ H). apply SAME.
    - unfold done. cbn [memory ExpHeapModel.size]. rewrite (traverse_top _ _ _ _ _ H). apply SAME.
  Qed.
End Top.

Section Start.
  Context {K V : Type} (zero : V) (k0 : K).
  Lemma start_holds : holds (memory (hnew zero k0)) (root (@new K V)) none L /\ clean (memory (hnew zero k0)) none L.
  Proof.
    split.
    - constructor; [|reflexivity|reflexivity]. constructor; cbn [pt kids ups addrs]; try exact Logic.I; [reflexivity|repeat constructor; tauto| |intros c []]. intros c [<-|[]]. cbn. lia.
    - split; [reflexivity|]. split; [split; [reflexivity|]|].
      + intros a e c Ha Hae Hc. destruct Ha as [->|[]]. rewrite (Hae eq_refl) in Hc. discriminate.
      + intros c [->|[]] Hc. congruence.
  Qed.
End Start.

Section Runs.
  Context {K V : Type} (cmp : K -> K -> Z) (th : Z) (zero : V).
  Lemma run_top ops : forall s t dead S, holds (memory s) (root t) dead S -> ExpHeapModel.size s = AvlModel.size t ->
    run (hstep cmp th zero) s ops = option_map (map (@HOut K V)) (run (ExpModel.step cmp th) t ops).
  Proof.
    induction ops as [|o ops IH]; intros s t dead S H HS; [reflexivity|]. cbn [run]. pose proof (step_top cmp th zero s t dead S o H HS) as A. unfold agree in A.
    destruct (hstep cmp th zero s o) as [[s' [r|]]|]; [|destruct A|rewrite A; reflexivity]. destruct A as (t' & dead' & S' & -> & H1 & H2 & _).
    rewrite (IH _ _ _ _ H1 H2). destruct (run (ExpModel.step cmp th) t' ops); reflexivity.
  Qed.
  Lemma reach_top ops : forall s t dead S s', holds (memory s) (root t) dead S -> ExpHeapModel.size s = AvlModel.size t -> reach (hstep cmp th zero) s ops = Some s' ->
    exists t' dead' S', holds (memory s') t' dead' S' /\ (forallb (fun o => negb (removal o)) ops = true -> clean (memory s) dead S -> clean (memory s') dead' S').
  Proof.
    induction ops as [|o ops IH]; intros s t dead S s' H HS HR; cbn [reach] in HR.
    - injection HR as <-. exists (root t), dead, S. split; [exact H|tauto].
    - pose proof (step_top cmp th zero s t dead S o H HS) as A. unfold agree in A.
      destruct (hstep cmp th zero s o) as [[s1 [r|]]|]; [|destruct A|discriminate]. destruct A as (t1 & dead1 & S1 & _ & H1 & H2 & H3).
      destruct (IH _ _ _ _ _ H1 H2 HR) as (t' & dead' & S' & H4 & H5). exists t', dead', S'. split; [exact H4|]. cbn [forallb]. intros Hf Hc. apply andb_prop in Hf as [Hf1 Hf2].
      apply H5; [exact Hf2|]. apply H3; [|exact Hc]. destruct (removal o); [discriminate|reflexivity].
  Qed.
End Runs.

Section Fields.
  Context {K V : Type}.
  Implicit Types m : mem K V.
  Lemma below_trans m a b c : below m a b -> below m b c -> below m a c.
  Proof. intros H H'. induction H' as [|x y _ IH Hxy]; [exact H|]. eapply below_child; eassumption. Qed.
  Lemma below_addrs m b l r c : kids m (B b l r) -> ~ In 0%nat (addrs (B b l r)) -> (below m b c <-> In c (addrs (B b l r))).
  Proof.
    intros HK H0. split.
    - intros H. induction H as [|x y _ IH (e & Hxy & _)]; [left; reflexivity|]. eapply kids_in; eassumption.
    - revert b l r c HK H0. enough (G : forall s, kids m s -> ~ In 0%nat (addrs s) -> forall b, pt s = Some b -> forall c, In c (addrs s) -> below m b c).
      { intros b l r c HK H0. apply (G (B b l r) HK H0 b eq_refl). }
      induction s as [|a l IHl r IHr]; intros HK H0 b Hb c Hc; [destruct Hc|]. cbn [kids addrs In pt] in *. injection Hb as ->. rewrite in_app_iff in *. destruct HK as (K1 & K2 & K3 & K4).
      destruct Hc as [->|[Hc|Hc]]; [apply below_self| |].
      + destruct l as [|q ql qr]; [destruct Hc|]. apply (below_trans m b q); [|apply IHl; auto]. apply (below_child m b b q); [apply below_self|]. exists false. split; [exact K1|intros ->; tauto].
      + destruct r as [|q ql qr]; [destruct Hc|]. apply (below_trans m b q); [|apply IHr; auto]. apply (below_child m b b q); [apply below_self|]. exists true. split; [exact K2|reflexivity].
  Qed.
  Lemma inTree_lives m t dead S c : holds m t dead S -> (inTree m c <-> lives S c).
  Proof.
    intros [HP HC _]. pose proof (zero_out _ _ _ HP) as H0. destruct HP as [P1 P2 P3 P4 P5 P6]. split.
    - intros H. induction H as [|x y _ IH (e & Hxy & He)]; [left; reflexivity|]. right. destruct IH as [->|IH].
      + rewrite (He eq_refl), P1 in Hxy. apply pt_in in Hxy. exact Hxy.
      + eapply kids_in; eassumption.
    - intros [->|Hc]; [apply below_self|]. destruct S as [|b l r]; [destruct Hc|]. apply (below_trans m 0%nat b); [|apply (below_addrs m b l r c P2 H0); exact Hc].
      apply (below_child m 0%nat 0%nat b); [apply below_self|]. exists true. split; [exact P1|reflexivity].
  Qed.
  Lemma ups_child m dead s p a e c : kids m s -> ups m dead s p -> In a (addrs s) -> Children m a e = Some c -> leads (Parent m) dead c a.
  Proof.
    revert p. induction s as [|b l IHl r IHr]; intros p H U Ha Hc; [destruct Ha|]. cbn [kids addrs In ups] in *. destruct H as (H1 & H2 & H3 & H4). destruct U as (U1 & U2 & U3). rewrite in_app_iff in Ha.
    destruct Ha as [->|[Ha|Ha]]; [|eapply IHl; eassumption|eapply IHr; eassumption].
    destruct e; [rewrite H2 in Hc; destruct r; [discriminate|]|rewrite H1 in Hc; destruct l; [discriminate|]]; injection Hc as ->; [apply U3|apply U2].
  Qed.
  Lemma holds_above m t dead S b c : holds m t dead S -> inTree m b -> childOf m c b -> above m c b.
  Proof.
    intros H Hb (e & Hc & He). apply (inTree_lives _ _ _ _ _ H) in Hb. assert (LD : leads (Parent m) dead c b).
    { destruct H as [[P1 P2 P3 P4 P5 P6] HC _]. destruct Hb as [->|Hb]; [|eapply ups_child; eassumption]. rewrite (He eq_refl), P1 in Hc. destruct S; [discriminate|]. injection Hc as ->. apply P3. }
    clear Hc He Hb. induction LD as [x q Hx|x y q Hx Hy _ IH]; [apply above_next; exact Hx|]. apply (above_via m x y); [exact Hx| |exact IH].
    intros Ht. apply (inTree_lives _ _ _ _ _ H) in Ht. destruct (pl_dead _ _ _ _ _ (i_place _ _ _ _ H) y Hy) as [_ D]. apply D. destruct Ht as [->|Ht]; [left; reflexivity|right; exact Ht].
  Qed.
  Lemma clean_parent m t dead S b c : holds m t dead S -> clean m dead S -> inTree m b -> childOf m c b -> Parent m c = Some b.
  Proof.
    intros H (_ & [_ X] & _) Hb (e & Hc & He). apply (inTree_lives _ _ _ _ _ H) in Hb. apply (X b e c Hb He Hc).
  Qed.
  Lemma sized_length m s : sized m s -> sz m (pt s) = Z.of_nat (length (addrs s)).
  Proof.
    induction s as [|a l IHl r IHr]; intros H; [reflexivity|]. cbn [sized pt sz addrs length] in *. destruct H as (H1 & H2 & H3). rewrite H1, IHl, IHr by assumption. rewrite app_length. lia.
  Qed.
  Lemma subtree m s b : kids m s -> sized m s -> NoDup (addrs s) -> In b (addrs s) ->
    exists l r, kids m (B b l r) /\ sized m (B b l r) /\ NoDup (addrs (B b l r)) /\ forall c, In c (addrs (B b l r)) -> In c (addrs s).
  Proof.
    induction s as [|a l IHl r IHr]; intros HK HS ND Hb; [destruct Hb|]. destruct (Nat.eq_dec b a) as [->|Hne]; [exists l, r; auto|].
    cbn [kids sized addrs] in HK, HS, ND, Hb. destruct HK as (K1 & K2 & K3 & K4). destruct HS as (S1 & S2 & S3). apply NoDup_cons_iff in ND as [N1 N2]. apply IndexHeapProofs.nodup_app in N2 as (N2 & N3 & _).
    destruct Hb as [Hb|Hb]; [congruence|]. apply in_app_iff in Hb as [Hb|Hb].
    - destruct (IHl K3 S2 N2 Hb) as (l' & r' & A1 & A2 & A3 & A4). exists l', r'. split; [exact A1|]. split; [exact A2|]. split; [exact A3|]. intros c Hc. right. apply in_app_iff. left. apply A4. exact Hc.
    - destruct (IHr K4 S3 N3 Hb) as (l' & r' & A1 & A2 & A3 & A4). exists l', r'. split; [exact A1|]. split; [exact A2|]. split; [exact A3|]. intros c Hc. right. apply in_app_iff. right. apply A4. exact Hc.
  Qed.
  Lemma clean_size m t dead S b : holds m t dead S -> clean m dead S -> inTree m b -> b <> 0%nat -> sizeRight m b.
  Proof.
    intros H (_ & _ & HS) Hb Hb0. apply (inTree_lives _ _ _ _ _ H) in Hb. destruct Hb as [->|Hb]; [congruence|]. destruct H as [HP HC _]. pose proof (zero_out _ _ _ HP) as H0.
    assert (SZ : sized m S) by (apply sized_at; [exact (pl_kids _ _ _ _ _ HP)|]; intros a Ha; apply HS; [right; exact Ha|congruence]).
    destruct (subtree m S b (pl_kids _ _ _ _ _ HP) SZ (nodup _ _ _ _ _ HP) Hb) as (l & r & A1 & A2 & A3 & A4). exists (addrs (B b l r)). split; [exact A3|]. split.
    - intros c. symmetry. apply below_addrs; [exact A1|]. intros Hx. apply H0, A4, Hx.
    - apply (sized_length m (B b l r) A2).
  Qed.
End Fields.
