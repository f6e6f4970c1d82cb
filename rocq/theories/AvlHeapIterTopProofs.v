(** Proofs about [AvlHeapIterModel]: calls that bring in no key and take none out leave all pointers alone; calls on a tree and an
    iterator together. *)
From Verif Require Import Base Bind Machine OrderSpec SMapSpec SMapFacts AvlTree AvlSpec AvlIterModel AvlIterProofs AvlStep AvlHeapModel AvlHeapSpec AvlHeapProofs AvlHeapRotProofs AvlHeapOpProofs AvlHeapTopProofs AvlHeapIterModel AvlHeapIterSpec AvlHeapIterProofs.
From Verif Require AvlModel.
Local Open Scope Z_scope.

Section Quiet.
  Context {K V : Type} (cmp : K -> K -> Z) (st : style) (d : Z) (zero : V).
  Implicit Types m : mem K V.
  Lemma put_hit key : forall f p c m m' t rb, put cmp st d zero f p c key m = Some (m', t, true, rb) -> m' = m.
  Proof.
    induction f as [|f IH]; intros p c m m' t rb; [discriminate|]. cbn [put]. destruct (rdKid m p c) as [[a|]|]; [| |discriminate].
    - destruct (_ <? 0); [intros [= <- _ _]; reflexivity|]. destruct (_ || _)%bool; [|discriminate]. destruct (put cmp st d zero f (Some a) _ key m) as [[[[m1 t1] ex] rb1]|] eqn:EP; [|discriminate].
      destruct ex; cbn [orb]; [intros [= <- _ _]; eapply IH, EP|]. destruct rb1; cbn [negb]; [|discriminate]. destruct (rebalance st d p c m1) as [[m2 rb2]|]; discriminate.
    - unfold newNode. destruct (wr _ p _) as [m2|]; [|discriminate]. destruct (rdKid m2 p (negb c)); discriminate.
  Qed.
  Lemma remove_miss key : forall f g c2 c m m' rb, remove cmp st d f key g c2 c m = Some (m', None, rb) -> m' = m /\ rb = false.
  Proof.
    induction f as [|f IH]; intros g c2 c m m' rb; [discriminate|]. cbn [remove]. destruct (rdKid m g c2) as [p|]; [|discriminate]. destruct (rdKid m p c) as [[a|]|]; [| |discriminate].
    - destruct (_ <? 0).
      + destruct (isNil _); [destruct (wr _ p m); discriminate|]. destruct (isNil _); [destruct (wr _ p m); discriminate|].
        destruct (neighboring _ _ _ _ _ _ m) as [[[m1 r] b]|]; [|discriminate]. destruct (rd m1 r); [|discriminate]. destruct (wr _ (Some a) m1) as [m2|]; [|discriminate]. destruct (rd m2 r); [|discriminate].
        destruct (wr _ (Some a) m2) as [m3|]; [|discriminate]. destruct (rebalance st d p c m3) as [[m4 b4]|]; discriminate.
      + destruct (_ || _)%bool; [|discriminate]. destruct (remove cmp st d f key p c _ m) as [[[m1 t1] rb1]|] eqn:ER; [|discriminate].
        destruct (negb (a =? 0)%nat && rb1)%bool eqn:EB.
        * destruct (rebalance st d p c m1) as [[m2 b2]|]; [|discriminate]. intros [= <- -> <-]. destruct (IH _ _ _ _ _ _ ER) as (_ & ->). rewrite andb_false_r in EB. discriminate.
        * intros [= <- -> <-]. exact (IH _ _ _ _ _ _ ER).
    - intros [= <- <-]. split; reflexivity.
  Qed.
  Definition still (h h' : havl K V) : Prop := hsize h' = hsize h /\ next (memory h') = next (memory h) /\ forall x, skel (nodes (memory h) x) (nodes (memory h') x).
  Lemma still_refl h : still h h. Proof. repeat split. Qed.
  Lemma skel_set m a f : (forall n, skel n (f n)) -> forall x, skel (nodes m x) (nodes (set a f m) x).
  Proof. intros Hf x. destruct (Nat.eq_dec x a) as [->|F]; [rewrite set_same; apply Hf|rewrite set_other by assumption; repeat split]. Qed.
  Lemma skel_trans (a b c : hnode K V) : skel a b -> skel b c -> skel a c. Proof. unfold skel. intuition congruence. Qed.
  Lemma quiet_still h h' o r : hstep cmp st d zero h o = Some (h', r) -> quiet o r = true -> still h h'.
  Proof.
    destruct o; cbn [hstep]; unfold hput, hupsert, hset, hget, hremove.
    all: try (intros [= <- <-] Q; first [apply still_refl|discriminate Q]).
    - destruct (put cmp st d zero _ _ _ _ _) as [[[[m1 t] ex] rb]|] eqn:EP; [|discriminate]. destruct ex; [intros [= <- <-] _; rewrite (put_hit _ _ _ _ _ _ _ _ EP); repeat split|]. destruct (wr _ t m1); [|discriminate]. intros [= <- <-] Q. discriminate Q.
    - destruct (put cmp st d zero _ _ _ _ _) as [[[[m1 t] ex] rb]|] eqn:EP; [|discriminate]. destruct ex; [intros [= <- <-] _; rewrite (put_hit _ _ _ _ _ _ _ _ EP); repeat split|]. destruct (wr _ t m1); [|discriminate]. intros [= <- <-] Q. discriminate Q.
    - destruct (put cmp st d zero _ _ _ _ _) as [[[[m1 t] ex] rb]|] eqn:EP; [|discriminate]. destruct t as [a|]; cbn [wr]; [|discriminate]. intros [= <- <-]. destruct ex; [intros _|intros Q; discriminate Q].
      rewrite (put_hit _ _ _ _ _ _ _ _ EP). split; [reflexivity|]. split; [reflexivity|]. intros x. cbn [memory]. eapply skel_trans; apply skel_set; intros n; repeat split.
    - destruct (get cmp _ _ _ _) as [[a|]|]; [| |discriminate].
      + cbn [wr]. intros [= <- <-] _. split; [reflexivity|]. split; [reflexivity|]. intros x. cbn [memory]. apply skel_set. intros n. repeat split.
      + destruct (put cmp st d zero _ _ _ _ _) as [[[[m1 t] ex] rb]|]; [|discriminate]. destruct (wr _ t m1) as [m2|]; [|discriminate]. destruct (wr _ t m2); [|discriminate]. intros [= <- <-] Q. discriminate Q.
    - destruct (get cmp _ _ _ _) as [[a|]|]; [| |discriminate]; intros [= <- <-] _; apply still_refl.
    - destruct (get cmp _ _ _ _) as [[a|]|]; [| |discriminate]; intros [= <- <-] _; apply still_refl.
    - destruct (remove cmp st d _ _ _ _ _ _) as [[[m1 [w|]] rb]|] eqn:ER; [| |discriminate]; intros [= <- <-] Q; [discriminate Q|]. destruct (remove_miss _ _ _ _ _ _ _ _ ER) as (-> & _). repeat split.
    - destruct (remove cmp st d _ _ _ _ _ _) as [[[m1 [w|]] rb]|] eqn:ER; [| |discriminate]; intros [= <- <-] Q; [discriminate Q|]. destruct (remove_miss _ _ _ _ _ _ _ _ ER) as (-> & _). repeat split.
    - destruct (hsize h =? 0)%nat; [intros [= <- <-] _; apply still_refl|]. destruct (htraverse h _); [|discriminate]. intros [= <- <-] _. apply still_refl.
    - destruct (htraverse h _); [|discriminate]. intros [= <- <-] _. apply still_refl.
  Qed.
End Quiet.

(** Cursors on entries and on addresses. *)
Section Cursor.
  Context {K V : Type} (ltb : K -> K -> bool) (f : nat -> K * V) (f0 : nat -> K) (L : list nat) (kA : nat) (key : K).
  Context (HL : forall a, In a L -> f0 a = fst (f a)) (Hk : f0 kA = key).
  Definition ltbA (a b : nat) : bool := ltb (f0 a) (f0 b).
  Definition plain (a : nat) : nat * unit := (a, tt).
  Lemma filter_both (P : nat * unit -> bool) (Q : K * V -> bool) : (forall a, In a L -> P (plain a) = Q (f a)) ->
    length (filter P (map plain L)) = length (filter Q (map f L)) /\ (filter P (map plain L) = [] <-> filter Q (map f L) = []).
  Proof.
    clear HL. induction L as [|a l IH]; intros HP; [split; [reflexivity|tauto]|]. cbn [map filter]. rewrite (HP a (or_introl eq_refl)). destruct IH as (I1 & I2); [intros b F; apply HP; right; exact F|].
    destruct (Q (f a)); [|split; assumption]. split; [cbn [length]; congruence|]. split; discriminate.
  Qed.
  Definition keyed (o : cu_op nat) (o' : cu_op K) : Prop :=
    match o, o' with
    | CFirst, CFirst | CLast, CLast | CNext, CNext | CPrev, CPrev | CClone, CClone | CValid, CValid | CKey, CKey | CValue, CValue => True
    | CGE a, CGE k | CGT a, CGT k | CLE a, CLE k | CLT a, CLT k => a = kA /\ k = key
    | _, _ => False
    end.
  Definition seeks {K} (o : cu_op K) : bool := match o with CGE _ | CGT _ | CLE _ | CLT _ => true | _ => false end.
  Definition asBool {K V} (r : cu_out K V) : bool := match r with CBool b => b | _ => false end.
  Lemma cursor_both q o o' : keyed o o' ->
    fst (cursor_spec ltbA true (map plain L) q o) = fst (cursor_spec ltb true (map f L) q o') /\
    (seeks o' = true -> exists b, snd (cursor_spec ltbA true (map plain L) q o) = CBool b /\ snd (cursor_spec ltb true (map f L) q o') = CBool b).
  Proof.
    intros HO. assert (EN : len (map plain L) = len (map f L)) by (unfold len; rewrite !map_length; reflexivity).
    assert (EG : forall i, goto (map plain L) i = goto (map f L) i) by (intros i; destruct L; reflexivity).
    assert (EB : len (before ltbA kA (map plain L)) = len (before ltb key (map f L))).
    { unfold len, before. f_equal. apply filter_both. intros a F. unfold ltbA, plain. cbn [fst]. rewrite (HL a F), Hk. reflexivity. }
    assert (EU : len (upto ltbA kA (map plain L)) = len (upto ltb key (map f L))).
    { unfold len, upto. f_equal. apply filter_both. intros a F. unfold ltbA, plain. cbn [fst]. rewrite (HL a F), Hk. reflexivity. }
    assert (EF : exists b, found ltbA kA (map plain L) = CBool b /\ found ltb key (map f L) = CBool b :> cu_out K V).
    { unfold found. destruct (filter_both (fun e => same ltbA (fst e) kA) (fun e => same ltb (fst e) key)) as (_ & I2).
      { intros a F. unfold same, ltbA, plain. cbn [fst]. rewrite (HL a F), Hk. reflexivity. }
      fold (sames ltbA kA (map plain L)) in I2. fold (sames ltb key (map f L)) in I2.
      destruct (sames ltbA kA (map plain L)) as [|e1 l1]; destruct (sames ltb key (map f L)) as [|e2 l2]; eauto; exfalso; [assert (e2 :: l2 = []) by tauto; discriminate|assert (e1 :: l1 = []) by tauto; discriminate]. }
    destruct o, o'; cbn [keyed] in HO; try contradiction; cbn [cursor_spec fst snd seeks land]; try (destruct HO as (-> & ->)); rewrite ?EN, ?EG, ?EB, ?EU; (split; [reflexivity|]); try discriminate; intros _; exact EF.
  Qed.
  Lemma entry_both q : entry_at (map f L) q = match entry_at (map plain L) q with Some (a, _) => Some (f a) | None => None end.
  Proof.
    destruct q as [i|]; [|reflexivity]. cbn [entry_at]. unfold len. rewrite !map_length. destruct (_ && _); [|reflexivity]. rewrite !nth_error_map. destruct (nth_error L _); reflexivity.
  Qed.
  Lemma weak_A : weak_order ltb -> weak_order ltbA.
  Proof. intros [W1 W2 W3]. unfold ltbA. split; intros; eauto. Qed.
  Lemma sorted_A : strictly_sorted ltb (map f L) -> strictly_sorted ltbA (map plain L).
  Proof.
    clear Hk. unfold strictly_sorted. induction L as [|a l IH]; cbn [map]; intros HS; [constructor|]. inversion HS as [|x y S1 S2]; subst. constructor; [apply IH; [intros b F; apply HL; right; exact F|exact S1]|].
    apply Forall_forall. intros x F. apply in_map_iff in F as (b & <- & F). rewrite Forall_forall in S2. unfold ltbA, plain. cbn [fst]. rewrite (HL a), (HL b) by (cbn; tauto). apply S2. apply in_map, F.
  Qed.
End Cursor.
Lemma elems_plain (T : atree) : elems T = map plain (addrs T).
Proof. induction T as [|h a [] l IHl r IHr]; [reflexivity|]. cbn [elems addrs]. rewrite map_app, IHl, IHr. reflexivity. Qed.
Lemma ht_tmap {K V} (f : nat -> K * V) T : ht (tmap f T) = ht T. Proof. induction T; cbn [tmap ht]; congruence. Qed.

Section World.
  Context {K V : Type} (cmp : K -> K -> Z) (st : style) (d : Z) (zero : V) (ltb : K -> K -> bool) (W : weak_order ltb) (Hcmp : ex_cmp ltb cmp).
  Definition full : bool := match st with Both => true | One => false end.
  Definition at_ (h : havl K V) (s : AvlModel.avl K V) T : Prop := rootAt (memory h) T /\ AvlModel.root s = tmap (entry (memory h)) T /\ hsize h = AvlModel.size s.
  Notation TA T h := (AvlModel.AVL T (hsize h) : AvlModel.avl nat unit).
  Lemma height_TA h s T : at_ h s T -> AvlModel.height s = Some (ht (AvlModel.root s)) -> AvlModel.height (TA T h) = Some (ht T) /\ hheight h = Some (ht T).
  Proof.
    intros HA Hh. assert (hheight h = AvlModel.height s) as Eh by (apply rel_height; exists T; exact HA). rewrite Eh, Hh. destruct HA as (_ & Hr & Hz). rewrite Hr, ht_tmap. split; [|reflexivity].
    revert Hh. rewrite Hr, ht_tmap. unfold AvlModel.height. cbn [AvlModel.size AvlModel.root]. rewrite Hz, Hr. destruct (AvlModel.size s); [auto|]. destruct T; cbn [tmap getHeight]; auto.
  Qed.
  Lemma new_sim h s T : at_ h s T -> AvlModel.height s = Some (ht (AvlModel.root s)) ->
    exists A, hnewIterator h = Some (H A) /\ ok (memory h) A /\ Pos (TA T h) (ht T) A None /\ newIterator (TA T h) = Some A.
  Proof.
    intros HA Hh. destruct (height_TA _ _ _ HA Hh) as (H1 & H2). exists (IT (TA T h) E (-1) (repeat (E, false) (Z.to_nat (ht T)))). split; [|split; [|split]].
    - unfold hnewIterator. rewrite H2. pose proof (ht_nonneg T) as X0. destruct (Z.ltb_spec (ht T) 0) as [X1|X1]; [lia|]. unfold H. cbn [cur idx stack ptrOf]. do 2 f_equal. induction (Z.to_nat (ht T)) as [|n IH]; [reflexivity|]. cbn [repeat map]. rewrite <- IH. reflexivity.
    - split; [reflexivity|]. cbn [stack]. apply Forall_forall. intros x F. apply repeat_spec in F as ->. reflexivity.
    - apply (new_pos (TA T h)).
    - apply (new_iter (TA T h) H1).
  Qed.
  Lemma Forall_parts {X} (P : X -> Prop) n l : Forall P l -> Forall P (firstn n l) /\ Forall P (skipn n l).
  Proof. intros F. rewrite <- (firstn_skipn n l) in F. apply Forall_app, F. Qed.
  Lemma call_sim h s T A q c : at_ h s T -> AvlModel.height s = Some (ht (AvlModel.root s)) -> strictly_sorted ltb (elems (AvlModel.root s)) ->
    ok (memory h) A -> Pos (TA T h) (ht T) A q ->
    exists A', hit_step cmp st h (H A) c = Some (H A', snd (cursor_spec ltb true (elems (AvlModel.root s)) q c)) /\ ok (memory h) A' /\
      Pos (TA T h) (ht T) A' (fst (cursor_spec ltb true (elems (AvlModel.root s)) q c)).
  Proof.
    intros HA Hh HS HO HP. pose proof (height_TA _ _ _ HA Hh) as (Hh' & _). pose proof (new_sim _ _ _ HA Hh) as HN0. clear Hh. pose proof HA as (HT & Hr & Hz). set (m := memory h) in *.
    assert (Hlev : (AvlIterModel.levels T <= steps m)%nat) by apply levels_steps, HT.
    assert (Hroot : getRoot m = ptrOf T) by (unfold getRoot; exact (rep_ptr _ _ _ (proj1 (proj1 HT)))).
    assert (Hgood : good m T) by (unfold good; rewrite <- Hroot; unfold getRoot; exact (proj1 (proj1 HT))).
    rewrite Hr, elems_tmap in *. set (L := addrs T) in *.
    assert (HI : forall a, In a L -> (0 < a < next m)%nat) by (intros a F; unfold L in F; rewrite in_addrs in F; eapply rep_in; [exact (proj1 (proj1 HT))|exact F]).
    assert (HB : itree A = TA T h) by (eapply Pos_base, HP).
    assert (main : forall key oA, keyed (next m) key oA c -> exists A' b, it_step (fun a b => cmp (if (a =? next m)%nat then key else Key (nodes m a)) (if (b =? next m)%nat then key else Key (nodes m b))) full A oA = Some (A', b) /\
       (seeks c = true -> exists x, b = CBool x /\ snd (cursor_spec ltb true (map (entry m) L) q c) = CBool x) /\
       Pos (TA T h) (ht T) A' (fst (cursor_spec ltb true (map (entry m) L) q c))).
    { intros key oA HK. set (f0 := fun a => if (a =? next m)%nat then key else Key (nodes m a)).
      assert (HL : forall a, In a L -> f0 a = fst (entry m a)) by (intros a F; unfold f0; destruct (Nat.eqb_spec a (next m)) as [->|_]; [pose proof (HI _ F); lia|reflexivity]).
      assert (Hk : f0 (next m) = key) by (unfold f0; rewrite Nat.eqb_refl; reflexivity).
      destruct (cursor_both ltb (entry m) f0 L (next m) key HL Hk q oA c HK) as (F1 & F2).
      destruct (it_pos (ltbA ltb f0) (weak_A ltb f0 W) (fun a b => cmp (f0 a) (f0 b)) (fun a b => Hcmp (f0 a) (f0 b)) (TA T h) Hh' full A q oA) as (A' & E1 & E2).
      { cbn [AvlModel.root]. rewrite elems_plain. apply (sorted_A ltb (entry m)); [exact HL|exact HS]. }
      { exact HP. }
      cbn [AvlModel.root] in E1, E2. rewrite elems_plain in E1, E2. fold L in E1, E2. exists A'. eexists. split; [exact E1|]. rewrite F1 in E2. split; [|exact E2]. intros F. destruct (F2 F) as (x & X1 & X2). exists x. split; assumption. }
    assert (ends : forall b A', seekToEnd b A = Some A' -> hseekToEnd m b (H A) = Some (H A') /\ ok m A').
    { intros b A'. unfold seekToEnd, hseekToEnd. rewrite HB. cbn [AvlModel.root]. rewrite Hroot. intros E1. eapply (down_loop_sim m b _ (steps m) (IT _ T (-1) (stack A))); [|split; [exact Hgood|exact (proj2 HO)]|exact E1]. cbn. exact Hlev. }
    assert (seekz : forall strict key lg A' b, seek (fun a b => cmp (if (a =? next m)%nat then key else Key (nodes m a)) (if (b =? next m)%nat then key else Key (nodes m b))) strict (next m) lg A = Some (A', b) -> hseek cmp m strict key lg (H A) = Some (H A', b) /\ ok m A').
    { intros strict key lg A' b. unfold seek, hseek. rewrite HB. cbn [AvlModel.root]. rewrite Hroot. destruct T as [|h1 a1 u1 l1 r1] eqn:ET.
      - intros [= <- <-]. split; [reflexivity|]. split; [reflexivity|exact (proj2 HO)].
      - rewrite <- ET in *. assert (isNil (ptrOf T) = false) as -> by (rewrite ET; reflexivity). intros E1.
        eapply (seek_loop_sim m (fun a b => cmp (if (a =? next m)%nat then key else Key (nodes m a)) (if (b =? next m)%nat then key else Key (nodes m b))) cmp (next m) key strict lg) with (A := IT (TA T h) T (-1) (stack A)).
        5: exact E1.
        + intros a Ha. rewrite Nat.eqb_refl. destruct (Nat.eqb_spec a (next m)); [lia|]. split; [reflexivity|]. rewrite Hcmp. destruct (ltb _ _); [lia|]. destruct (ltb _ _); lia.
        + exact Hlev.
        + cbn [itree AvlModel.root]. exact Hlev.
        + split; [exact Hgood|exact (proj2 HO)]. }
    assert (Hread : entry_at (map (entry m) L) q = match hcur (H A) with Some a => Some (entry m a) | None => None end).
    { rewrite entry_both. pose proof (read_pos (TA T h) (ht T) A q HP) as RP. cbn [AvlModel.root] in RP. rewrite elems_plain in RP. fold L in RP. rewrite RP. unfold H. cbn [hcur]. destruct (cur A); reflexivity. }
    pose (k1 := Key (nodes m 0%nat)).
    destruct c.
    - destruct (main k1 CFirst I) as (A' & b & E1 & _ & E2). cbn [it_step] in E1. destruct (seekToEnd false A) as [A1|] eqn:ES; [|discriminate]. injection E1 as <- _. destruct (ends _ _ ES) as (X1 & X2). exists A1. cbn [hit_step]. fold m. rewrite X1. split; [reflexivity|]. split; assumption.
    - destruct (main k1 CLast I) as (A' & b & E1 & _ & E2). cbn [it_step] in E1. destruct (seekToEnd true A) as [A1|] eqn:ES; [|discriminate]. injection E1 as <- _. destruct (ends _ _ ES) as (X1 & X2). exists A1. cbn [hit_step]. fold m. rewrite X1. split; [reflexivity|]. split; assumption.
    - destruct (main k1 CNext I) as (A' & b & E1 & _ & E2). cbn [it_step] in E1. destruct (move true A) as [A1|] eqn:ES; [|discriminate]. injection E1 as <- _. destruct (move_sim m _ _ _ ltac:(rewrite HB; exact Hlev) HO ES) as (X1 & X2). exists A1. cbn [hit_step]. fold m. rewrite X1. split; [reflexivity|]. split; assumption.
    - destruct (main k1 CPrev I) as (A' & b & E1 & _ & E2). cbn [it_step] in E1. destruct (move false A) as [A1|] eqn:ES; [|discriminate]. injection E1 as <- _. destruct (move_sim m _ _ _ ltac:(rewrite HB; exact Hlev) HO ES) as (X1 & X2). exists A1. cbn [hit_step]. fold m. rewrite X1. split; [reflexivity|]. split; assumption.
    - destruct (main k (CGE (next m)) (conj eq_refl eq_refl)) as (A' & b & E1 & E3 & E2). cbn [it_step] in E1. destruct (seek _ _ _ _ A) as [[A1 b1]|] eqn:ES; [|discriminate]. injection E1 as <- <-. destruct (seekz _ _ _ _ _ ES) as (X1 & X2). destruct (E3 eq_refl) as (x & [= <-] & ->). exists A1. cbn [hit_step]. fold m. rewrite X1. split; [reflexivity|]. split; assumption.
    - destruct (main k (CGT (next m)) (conj eq_refl eq_refl)) as (A' & b & E1 & E3 & E2). cbn [it_step] in E1. destruct (seek _ _ _ _ A) as [[A1 b1]|] eqn:ES; [|discriminate]. injection E1 as <- <-. destruct (seekz _ _ _ _ _ ES) as (X1 & X2). destruct (E3 eq_refl) as (x & [= <-] & ->). exists A1. cbn [hit_step]. fold m. rewrite X1. split; [reflexivity|]. split; assumption.
    - destruct (main k (CLE (next m)) (conj eq_refl eq_refl)) as (A' & b & E1 & E3 & E2). cbn [it_step] in E1. destruct (seek _ _ _ _ A) as [[A1 b1]|] eqn:ES; [|discriminate]. injection E1 as <- <-. destruct (seekz _ _ _ _ _ ES) as (X1 & X2). destruct (E3 eq_refl) as (x & [= <-] & ->). exists A1. cbn [hit_step]. fold m. rewrite X1. split; [reflexivity|]. split; assumption.
    - destruct (main k (CLT (next m)) (conj eq_refl eq_refl)) as (A' & b & E1 & E3 & E2). cbn [it_step] in E1. destruct (seek _ _ _ _ A) as [[A1 b1]|] eqn:ES; [|discriminate]. injection E1 as <- <-. destruct (seekz _ _ _ _ _ ES) as (X1 & X2). destruct (E3 eq_refl) as (x & [= <-] & ->). exists A1. cbn [hit_step]. fold m. rewrite X1. split; [reflexivity|]. split; assumption.
    - exists A. cbn [hit_step cursor_spec fst snd]. fold m. rewrite Hread. split; [destruct (hcur (H A)); reflexivity|]. split; assumption.
    - exists A. cbn [hit_step cursor_spec fst snd]. fold m. rewrite Hread. split; [destruct (hcur (H A)); reflexivity|]. split; assumption.
    - exists A. cbn [hit_step cursor_spec fst snd]. fold m. rewrite Hread. split; [destruct (hcur (H A)); reflexivity|]. split; assumption.
    - destruct (main k1 CClone I) as (A' & b & E1 & _ & E2). cbn [it_step] in E1. destruct HN0 as (A0 & N1 & (_ & N2) & _ & N4). cbn [hit_step]. unfold full in E1. destruct st.
      + unfold clone in E1. rewrite HB, N4 in E1. injection E1 as <- _. eexists. unfold hclone. rewrite N1. split; [|split; [|exact E2]].
        * unfold H. cbn [hcur hidx hstack cur idx stack]. rewrite !map_length, firstn_map, skipn_map, <- map_app. reflexivity.
        * split; [exact (proj1 HO)|]. cbn [stack]. apply Forall_app. split; [apply (Forall_parts _ _ _ (proj2 HO))|apply (Forall_parts _ _ _ N2)].
      + unfold clone_used in E1. rewrite HB, N4 in E1. destruct (copy_cells _ _ _ _) as [s1|] eqn:EC; [|discriminate]. injection E1 as <- _. destruct (copy_sim m _ _ _ _ _ EC) as (C1 & C2). eexists. unfold hclone_used. rewrite N1. unfold H at 1 2 3. cbn [hidx hstack]. rewrite C1.
        split; [|split; [|exact E2]]; [reflexivity|]. split; [exact (proj1 HO)|]. cbn [stack]. apply C2; [exact (proj2 HO)|exact N2].
  Qed.
  (** a tree, an iterator, the map and the cursor on it *)
  Definition winv (w : havl K V * option hiter) (s : AvlModel.avl K V) (x : list (K * V) * option (option Z)) : Prop :=
    exists T, at_ (fst w) s T /\ Rel ltb s (fst x) /\
      match snd x with None => True | Some q => exists A, snd w = Some (H A) /\ ok (memory (fst w)) A /\ Pos (TA T (fst w)) (ht T) A q end.
  Lemma skel_at (h h' : havl K V) T : still h h' -> rootAt (memory h) T -> rep (memory h') (getRoot (memory h')) T.
  Proof.
    intros (_ & Hn & HF) ((HR & _) & _). destruct (HF 0%nat) as (_ & _ & E1). unfold getRoot. cbn [kid] in HR |- *. rewrite E1. revert HR. apply rep_frame; [rewrite Hn; apply Nat.le_refl|intros x _; apply HF].
  Qed.
  Lemma ok_still (h h' : havl K V) A : still h h' -> ok (memory h) A -> ok (memory h') A.
  Proof.
    intros (_ & Hn & HF) (G1 & G2). assert (HG : forall t, good (memory h) t -> good (memory h') t) by (intros t; unfold good; apply rep_frame; [rewrite Hn; apply Nat.le_refl|intros; apply HF]).
    split; [apply HG, G1|]. eapply Forall_impl; [|exact G2]. intros x. apply HG.
  Qed.
  Lemma world_run ops : forall w s x, winv w s x -> careful ltb x ops ->
    (forall p p', treecalls ops = p ++ p' -> exists s', reach (AvlModel.step cmp st d) s p = Some s' /\ AvlModel.height s' = Some (ht (AvlModel.root s'))) ->
    run (wstep cmp st d zero) w ops = Some (srun (wspec ltb) x ops).
  Proof.
    induction ops as [|o ops IH]; intros [h it] s [m p] HV HC HH; [reflexivity|]. cbn [careful] in HC. destruct HC as (HC1 & HC2). destruct HV as (T & HA & HR & HP). cbn [fst snd] in *.
    destruct (HH [] _ eq_refl) as (s0 & [= <-] & Hh). cbn [run srun]. destruct o as [o| |c]; cbn [wstep].
    - cbn [treecalls flat_map app] in HH. fold (@treecalls K V ops) in HH. destruct (HH [o] (treecalls ops) eq_refl) as (s1 & E1 & Hh1). cbn [reach] in E1. destruct (AvlModel.step cmp st d s o) as [[s' r]|] eqn:ES; [|discriminate]. injection E1 as ->.
      pose proof (step_top cmp st d zero h s o ltac:(exists T; exact HA)) as X. rewrite ES in X. destruct X as (h' & E2 & (T' & HA')). rewrite E2.
      destruct (step_any ltb W cmp Hcmp st d s m o s1 r HR ES) as (Er & HR'). cbn [wspec] in HC2 |- *. destruct (smap_spec ltb m o) as [m' r'] eqn:EM. cbn [fst snd] in *. subst r'.
      rewrite (IH (h', it) s1 (m', if quiet o r then p else None)); [reflexivity| |exact HC2|].
      + exists T'. cbn [fst snd]. split; [exact HA'|]. split; [exact HR'|]. destruct (quiet o r) eqn:EQ; [|exact I]. destruct p as [q|]; [|exact I]. destruct HP as (A & X1 & X2 & X3).
        pose proof (quiet_still cmp st d zero h h' o r E2 EQ) as HQ. assert (T = T') as -> by (eapply rep_det; [exact (skel_at _ _ _ HQ (proj1 HA))|]; exact (proj1 (proj1 (proj1 HA')))).
        exists A. split; [exact X1|]. split; [eapply ok_still; eassumption|]. rewrite (proj1 HQ). exact X3.
      + intros a b Eab. destruct (HH (o :: a) b) as (s2 & F1 & F2); [cbn [app]; congruence|]. cbn [reach] in F1. rewrite ES in F1. exists s2. split; assumption.
    - destruct (new_sim _ _ _ HA Hh) as (A & N1 & N2 & N3 & _). rewrite N1. cbn [wspec fst] in *. rewrite (IH (h, Some (H A)) s (m, Some None)); [reflexivity| |exact HC2|exact HH].
      exists T. cbn [fst snd]. split; [exact HA|]. split; [exact HR|]. exists A. split; [reflexivity|]. split; [exact N2|exact N3].
    - destruct p as [q|]; [|contradiction]. destruct HP as (A & -> & X2 & X3). pose proof HR as (R1 & R2 & R3). subst m. destruct (call_sim h s T A q c HA Hh R3 X2 X3) as (A' & Y1 & Y2 & Y3). rewrite Y1.
      cbn [wspec] in *. destruct (cursor_spec ltb true (elems (AvlModel.root s)) q c) as [q' r]. cbn [fst snd] in *. rewrite (IH (h, Some (H A')) s (elems (AvlModel.root s), Some q')); [reflexivity| |exact HC2|exact HH].
      exists T. cbn [fst snd]. split; [exact HA|]. split; [exact HR|]. exists A'. split; [reflexivity|]. split; assumption.
  Qed.
End World.
