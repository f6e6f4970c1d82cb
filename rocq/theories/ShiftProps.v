(** tree/indextree/experiment: ShiftToleranceTree (C67). *)
From Verif Require Import Base Bind Machine OrderSpec SMapSpec SMapFacts AvlTree AvlSpec AvlModel IndexSpec IndexModel ShiftModel.
From Verif Require IndexProofs SignProofs ExpProps.
Local Open Scope Z_scope.

(** What the calls should answer: a sorted map that only grows. *)
Section Spec.
  Context {K V : Type} (ltb : K -> K -> bool).
  Definition growing_spec (m : list (K * V)) (o : stol_op K V) : list (K * V) * stol_out V :=
    match o with
    | SPut k v => match sames ltb k m with [] => (write ltb k (k, v) m, SBool true) | _ => (m, SBool false) end
    | SGet k => (m, SVal (option_map snd (hd_error (sames ltb k m))))
    | SSize | SHeight => (m, SNat (length m))
    end.
  (** entries from left to right, height, number of nodes *)
  Fixpoint content (t : stree K V) : list (K * V) := match t with SE => [] | SN _ _ _ k v l r => content l ++ (k, v) :: content r end.
  Fixpoint levels (t : stree K V) : Z := match t with SE => 0 | SN _ _ _ _ _ l r => 1 + Z.max (levels l) (levels r) end.
  Definition count (t : stree K V) : Z := Z.of_nat (length (content t)).
  (** every stored Size is the number of nodes, every stored Balance the difference of the two numbers below, every stored
      Height the height where that fits into an int8 *)
  Fixpoint fields_right (t : stree K V) : Prop :=
    match t with
    | SE => True
    | SN s h b _ _ l r => (s = count t /\ b = count l - count r /\ (levels t <= 127 -> h = levels t)) /\ fields_right l /\ fields_right r
    end.
  Definition only_grows (o : stol_op K V) : Prop := match o with SPut _ _ | SSize => True | _ => False end.
End Spec.

Section Proofs.
  Context {K V : Type} (ltb : K -> K -> bool) (W : weak_order ltb) (cmp : K -> K -> Z) (Hcmp : sign_cmp ltb cmp) (shift : Z) (Hsh : 0 <= shift).
  Notation stree := (stree K V).
  Implicit Types t l r : stree.
  Fixpoint skeleton (t : stree) : tree K V := match t with SE => E | SN s _ _ k v l r => N s k v (skeleton l) (skeleton r) end.
  Lemma content_sk t : content t = elems (skeleton t).
  Proof. induction t as [|s h b k v l IHl r IHr]; cbn [content skeleton elems]; [reflexivity|]. rewrite IHl, IHr. reflexivity. Qed.
  Lemma size_sk t : sizeT t = getSize (skeleton t).
  Proof. destruct t; reflexivity. Qed.

  (** stored heights and balances, as far as the children's fields go *)
  Fixpoint good (t : stree) : Prop :=
    match t with SE => True | SN _ h b _ _ l r => (b = sizeT l - sizeT r /\ (levels t <= 127 -> h = levels t)) /\ good l /\ good r end.
  Lemma levels_pos t : 0 <= levels t.
  Proof. induction t; cbn [levels]; lia. Qed.
  Lemma height_good t : good t -> levels t <= 127 -> heightT t = levels t.
  Proof. destruct t; cbn [heightT]; [reflexivity|]. intros ((_ & H) & _). exact H. Qed.
  Lemma renew_good s k v l r : good l -> good r -> good (renew s k v l r).
  Proof.
    intros Hl Hr. unfold renew. cbn [good]. split; [|split; assumption]. split; [reflexivity|]. cbn [levels]. intros H.
    unfold newHeight. pose proof (levels_pos l). pose proof (levels_pos r). rewrite (height_good l Hl), (height_good r Hr) by lia.
    rewrite Z.gtb_ltb. destruct (Z.ltb_spec (levels r) (levels l)); unfold i8; rewrite Z.mod_small by lia; lia.
  Qed.
  Lemma lrotate_good t u : good t -> slrotate t = Some u -> good u.
  Proof.
    destruct t as [|s h b k v l [|ms mh mb mk mv ml mr]]; cbn [slrotate]; try discriminate. intros (_ & Hl & _ & H1 & H2) [= <-].
    unfold resum. apply renew_good; [apply renew_good|]; assumption.
  Qed.
  Lemma rrotate_good t u : good t -> srrotate t = Some u -> good u.
  Proof.
    destruct t as [|s h b k v [|ms mh mb mk mv ml mr] r]; cbn [srrotate]; try discriminate. intros (_ & (_ & H1 & H2) & Hr) [= <-].
    unfold resum. apply renew_good; [|apply renew_good]; assumption.
  Qed.
  Lemma lrotate_sk t : option_map skeleton (slrotate t) = lrotate (skeleton t).
  Proof. destruct t as [|s h b k v l [|ms mh mb mk mv ml mr]]; try reflexivity. cbn. rewrite !size_sk. reflexivity. Qed.
  Lemma rrotate_sk t : option_map skeleton (srrotate t) = rrotate (skeleton t).
  Proof. destruct t as [|s h b k v [|ms mh mb mk mv ml mr] r]; try reflexivity. cbn. rewrite !size_sk. reflexivity. Qed.
  Lemma RRotate_sk t : option_map skeleton (ssizeRRotate t) = sizeRRotate (skeleton t).
  Proof.
    destruct t as [|s h b k v l [|ms mh mb mk mv ml mr]]; try reflexivity. cbn [ssizeRRotate skeleton sizeRRotate]. rewrite !size_sk.
    destruct (_ >? _).
    - change (N ms mk mv (skeleton ml) (skeleton mr)) with (skeleton (SN ms mh mb mk mv ml mr)). rewrite <- rrotate_sk. destruct (srrotate _) as [u|]; [|reflexivity]. cbn [option_map]. apply (lrotate_sk (SN s h b k v l u)).
    - apply (lrotate_sk (SN s h b k v l (SN ms mh mb mk mv ml mr))).
  Qed.
  Lemma LRotate_sk t : option_map skeleton (ssizeLRotate t) = sizeLRotate (skeleton t).
  Proof.
    destruct t as [|s h b k v [|ms mh mb mk mv ml mr] r]; try reflexivity. cbn [ssizeLRotate skeleton sizeLRotate]. rewrite !size_sk.
    destruct (_ <? _).
    - change (N ms mk mv (skeleton ml) (skeleton mr)) with (skeleton (SN ms mh mb mk mv ml mr)). rewrite <- lrotate_sk. destruct (slrotate _) as [u|]; [|reflexivity]. cbn [option_map]. apply (rrotate_sk (SN s h b k v u r)).
    - apply (rrotate_sk (SN s h b k v (SN ms mh mb mk mv ml mr) r)).
  Qed.
  Lemma RRotate_good t u : good t -> ssizeRRotate t = Some u -> good u.
  Proof.
    destruct t as [|s h b k v l [|ms mh mb mk mv ml mr]]; cbn [ssizeRRotate]; try discriminate. intros (H1 & Hl & Hr). destruct (_ >? _).
    - destruct (srrotate _) as [w|] eqn:E0; [|discriminate]. pose proof (rrotate_good _ _ Hr E0) as Hw. destruct w; [discriminate|]. cbn.
      intros [= <-]. destruct Hw as (_ & H2 & H3). unfold resum. apply renew_good; [apply renew_good|]; assumption.
    - apply lrotate_good. exact (conj H1 (conj Hl Hr)).
  Qed.
  Lemma LRotate_good t u : good t -> ssizeLRotate t = Some u -> good u.
  Proof.
    destruct t as [|s h b k v [|ms mh mb mk mv ml mr] r]; cbn [ssizeLRotate]; try discriminate. intros (H1 & Hl & Hr). destruct (_ <? _).
    - destruct (slrotate _) as [w|] eqn:E0; [|discriminate]. pose proof (lrotate_good _ _ Hl E0) as Hw. destruct w; [discriminate|]. cbn.
      intros [= <-]. destruct Hw as (_ & H2 & H3). unfold resum. apply renew_good; [|apply renew_good]; assumption.
    - apply rrotate_good. exact (conj H1 (conj Hl Hr)).
  Qed.
  Definition fsk (p : stree * climb) : tree K V * climb := (skeleton (fst p), snd p).
  Lemma fix_sk c s h b k v l r : sizeT l + sizeT r = s -> option_map fsk (sfixPut shift c (SN s h b k v l r)) = fixPut shift c (skeleton (SN s h b k v l r)).
  Proof.
    intros Hs. cbn [sfixPut skeleton fixPut]. destruct c as [|n|]; [reflexivity| |].
    - destruct (shift <? 0); [reflexivity|]. pose proof (RRotate_sk (renew (s + 1) k v l r)) as HR. pose proof (LRotate_sk (renew (s + 1) k v l r)) as HL.
      unfold renew in *. cbn [skeleton] in HR, HL. rewrite <- HR, <- HL. rewrite !size_sk. destruct (_ <? shl64 n); [|reflexivity]. cbv zeta.
      destruct (_ <? 0); destruct (_ <=? _); try reflexivity; [destruct (ssizeRRotate _)|destruct (ssizeLRotate _)]; reflexivity.
    - unfold resum. rewrite Hs. reflexivity.
  Qed.
  Lemma fix_good c s h b k v l r t c' : good l -> good r -> sfixPut shift c (SN s h b k v l r) = Some (t, c') -> good t.
  Proof.
    intros Hl Hr. cbn [sfixPut]. pose proof (renew_good (s + 1) k v l r Hl Hr) as Hn. destruct c as [|n|].
    - intros [= <- _]. exact Hn.
    - destruct (shift <? 0); [discriminate|]. destruct (_ <? _); [|intros [= <- _]; exact Hn]. cbv zeta. destruct (_ <? 0).
      + destruct (_ <=? _); [|intros [= <- _]; exact Hn]. destruct (ssizeRRotate _) eqn:E0; [|discriminate]. intros [= <- _]. apply (RRotate_good _ _ Hn E0).
      + destruct (_ <=? _); [|intros [= <- _]; exact Hn]. destruct (ssizeLRotate _) eqn:E0; [|discriminate]. intros [= <- _]. apply (LRotate_good _ _ Hn E0).
    - intros [= <- _]. unfold resum. apply renew_good; assumption.
  Qed.

  (** Put compares cur.Key with key where tree/indextree compares key with cur.Key *)
  Definition turned (key k : K) : Z := - cmp k key.
  Lemma turned_sign : sign_cmp ltb turned.
  Proof. intros a b. unfold turned. destruct (Hcmp b a) as (H1 & H2). rewrite <- H1, <- H2. lia. Qed.
  Lemma put_index key v (t : tree K V) : 0 <= shift -> strictly_sorted ltb (elems t) -> sized t -> exists (t' : tree K V) res,
    IndexModel.put turned shift (fun e => e) key v t = Some (t', res) /\ sized t' /\ (res = None <-> sames ltb key (elems t) <> []) /\
    elems t' = (match sames ltb key (elems t) with [] => write ltb key (key, v) (elems t) | x :: _ => write ltb key x (elems t) end) /\
    (res <> None -> len (elems t') = len (elems t) + 1).
  Proof.
    intros _ Hs Ht. rewrite <- SignProofs.put_sgn.
    destruct (IndexProofs.put_ok ltb W _ (SignProofs.sgn_plain _ ltb W turned_sign) shift (fun e => e) key v t Hsh Hs Ht) as (t' & res & H1 & H2 & H3 & H4 & H5).
    exists t', res. auto 6.
  Qed.
  Definition psk (p : stree * option climb) : tree K V * option climb := (skeleton (fst p), snd p).
  Lemma put_sk key v t : sized (skeleton t) -> strictly_sorted ltb (elems (skeleton t)) ->
    option_map psk (sput cmp shift key v t) = IndexModel.put turned shift (fun e => e) key v (skeleton t).
  Proof.
    induction t as [|s h b k x l IHl r IHr]; intros Hz Hs; [reflexivity|].
    cbn [skeleton] in Hz, Hs. pose proof Hz as (Es & Hl & Hr). cbn [elems] in Hs. destruct (strict_mid ltb _ _ _ Hs) as (Sl & Sr & _ & _).
    cbn [sput skeleton IndexModel.put]. unfold turned at 1 3. rewrite !Z.gtb_ltb.
    replace (- cmp k key <? 0) with (0 <? cmp k key) by (apply Bool.eq_iff_eq_true; rewrite !Z.ltb_lt; lia).
    replace (0 <? - cmp k key) with (cmp k key <? 0) by (apply Bool.eq_iff_eq_true; rewrite !Z.ltb_lt; lia).
    specialize (IHl Hl Sl). specialize (IHr Hr Sr).
    destruct (put_index key v (skeleton l) Hsh Sl Hl) as (l' & resl & L1 & L2 & _ & _ & L3).
    destruct (put_index key v (skeleton r) Hsh Sr Hr) as (r' & resr & R1 & R2 & _ & _ & R3).
    rewrite L1 in *. rewrite R1 in *. destruct (Z.ltb_spec (cmp k key) 0) as [C|C]; [replace (0 <? cmp k key) with false by (symmetry; apply Z.ltb_ge; lia)|].
    - destruct (sput cmp shift key v r) as [(r1, res1)|]; [|discriminate]. injection IHr as E1 E2. cbn [fst snd] in E1, E2. subst r' resr.
      destruct res1 as [c|]; [|reflexivity]. change (N s k x (skeleton l) (skeleton r1)) with (skeleton (SN s h b k x l r1)). rewrite <- fix_sk.
      + destruct (sfixPut _ _ _) as [(t1, c1)|]; reflexivity.
      + rewrite !size_sk, !IndexProofs.size_len by assumption. rewrite R3 by discriminate. unfold len in *. lia.
    - destruct (0 <? cmp k key); [|reflexivity].
      destruct (sput cmp shift key v l) as [(l1, res1)|]; [|discriminate]. injection IHl as E1 E2. cbn [fst snd] in E1, E2. subst l' resl.
      destruct res1 as [c|]; [|reflexivity]. change (N s k x (skeleton l1) (skeleton r)) with (skeleton (SN s h b k x l1 r)). rewrite <- fix_sk.
      + destruct (sfixPut _ _ _) as [(t1, c1)|]; reflexivity.
      + rewrite !size_sk, !IndexProofs.size_len by assumption. rewrite L3 by discriminate. unfold len in *. lia.
  Qed.
  Lemma put_good key v t : good t -> forall t' res, sput cmp shift key v t = Some (t', res) ->
    good t' /\ (res = None -> levels t' = levels t /\ sizeT t' = sizeT t).
  Proof.
    induction t as [|s h b k x l IHl r IHr]; intros Hg t' res; cbn [sput].
    - intros [= <- <-]. split; [|discriminate]. cbn. repeat split; auto.
    - destruct Hg as ((Hb & Hh) & Hl & Hr). destruct (_ <? 0).
      + destruct (sput cmp shift key v r) as [(r1, res1)|]; [|discriminate]. destruct (IHr Hr _ _ eq_refl) as (G1 & G2). destruct res1 as [c|].
        * destruct (sfixPut _ _ _) as [(t1, c1)|] eqn:E0; [|discriminate]. intros [= <- <-]. split; [|discriminate]. apply (fix_good _ _ _ _ _ _ _ _ _ _ Hl G1 E0).
        * intros [= <- <-]. destruct (G2 eq_refl) as (G3 & G4). cbn [good levels sizeT]. rewrite G3, G4. auto 6.
      + destruct (_ >? 0).
        * destruct (sput cmp shift key v l) as [(l1, res1)|]; [|discriminate]. destruct (IHl Hl _ _ eq_refl) as (G1 & G2). destruct res1 as [c|].
          -- destruct (sfixPut _ _ _) as [(t1, c1)|] eqn:E0; [|discriminate]. intros [= <- <-]. split; [|discriminate]. apply (fix_good _ _ _ _ _ _ _ _ _ _ G1 Hr E0).
          -- intros [= <- <-]. destruct (G2 eq_refl) as (G3 & G4). cbn [good levels sizeT]. rewrite G3, G4. auto 6.
        * intros [= <- <-]. cbn [good levels sizeT]. auto 6.
  Qed.

  Definition Rel (s : stol K V) (m : list (K * V)) : Prop :=
    content (sroot s) = m /\ scount s = length m /\ strictly_sorted ltb m /\ sized (skeleton (sroot s)) /\ good (sroot s).
  Lemma rel_right s m : Rel s m -> fields_right (sroot s).
  Proof.
    intros (_ & _ & _ & Hz & Hg). revert Hz Hg. generalize (sroot s). clear. induction s as [|n h b k v l IHl r IHr]; [constructor|].
    cbn [skeleton]. intros (Hn & Hl & Hr) ((Hb & Hh) & Gl & Gr). cbn [fields_right]. split; [|split; auto]. unfold count. rewrite !size_sk, !IndexProofs.size_len in Hb by assumption.
    cbn [content]. rewrite app_length. cbn [length]. rewrite !content_sk. unfold len in *. split; [lia|]. split; [lia|exact Hh].
  Qed.
  Lemma step_ok s m o : Rel s m -> only_grows o ->
    exists s', stol_step cmp shift s o = Some (s', snd (growing_spec ltb m o)) /\ Rel s' (fst (growing_spec ltb m o)).
  Proof.
    intros (Hc & Hn & Hs & Hz & Hg) Ho. destruct o as [k v|k| |]; try contradiction.
    - cbn [stol_step growing_spec]. rewrite content_sk in Hc. subst m.
      destruct (put_index k v (skeleton (sroot s)) Hsh Hs Hz) as (t' & res & P1 & P2 & P3 & P4 & P5).
      pose proof (put_sk k v (sroot s) Hz Hs) as HP. rewrite P1 in HP. destruct (sput cmp shift k v (sroot s)) as [(t1, res1)|] eqn:E0; [|discriminate].
      injection HP as E1 E2. cbn [fst snd] in E1, E2. subst t' res1. destruct (put_good k v (sroot s) Hg t1 res E0) as (G & _).
      destruct (sames ltb k (elems (skeleton (sroot s)))) as [|e es] eqn:Es.
      + destruct res as [c|]; [|destruct (proj1 P3 eq_refl); reflexivity]. eexists. split; [reflexivity|]. unfold Rel. cbn [sroot scount fst].
        rewrite content_sk, P4. split; [reflexivity|]. rewrite <- P4. split; [rewrite Hn; unfold len in P5; specialize (P5 ltac:(discriminate)); lia|].
        split; [|split; assumption]. rewrite P4. apply write_sorted; auto. apply (same_refl _ W).
      + destruct res as [c|]; [discriminate (proj2 P3 ltac:(discriminate))|]. eexists. split; [reflexivity|]. unfold Rel. cbn [sroot scount fst].
        assert (Ew : write ltb k e (elems (skeleton (sroot s))) = elems (skeleton (sroot s))).
        { unfold write. pose proof (cut_all ltb W (elems (skeleton (sroot s))) k (strict_weak ltb W _ Hs)) as CA.
          destruct (strict_sames ltb W (elems (skeleton (sroot s))) k Hs) as [Q|(x' & Q)]; rewrite Q in *; [discriminate|]. injection Es as -> <-. symmetry. exact CA. }
        rewrite content_sk, P4, Ew. auto 6.
    - cbn [stol_step growing_spec fst snd]. exists s. rewrite Hn. split; [reflexivity|]. unfold Rel. auto 6.
  Qed.
  Lemma run_ok ops : Forall only_grows ops -> forall s m, Rel s m -> exists s',
    run (stol_step cmp shift) s ops = Some (srun (growing_spec ltb) m ops) /\ reach (stol_step cmp shift) s ops = Some s' /\ Rel s' (sreach (growing_spec ltb) m ops).
  Proof.
    induction 1 as [|o ops Ho H IH]; intros s m HR; [exists s; auto|]. destruct (step_ok s m o HR Ho) as (s1 & E1 & R1). cbn [run reach srun sreach].
    rewrite E1. destruct (growing_spec ltb m o) as (m1, x). cbn [fst snd] in *. destruct (IH s1 m1 R1) as (s2 & -> & -> & R2). exists s2. auto.
  Qed.

  (** Put and Size answer as a sorted map that only grows; the entries are in order; Size, Balance and Height of every node
      are right, and Height() is the height, as long as that fits into an int8.  Full statement: Get too, and Height()
      always.  Both are false, see below. *)
  Theorem C67_growing_sorted_partial (ops : list (stol_op K V)) : Forall only_grows ops -> exists s,
    run (stol_step cmp shift) snew ops = Some (srun (growing_spec ltb) [] ops) /\ reach (stol_step cmp shift) snew ops = Some s /\
    content (sroot s) = sreach (growing_spec ltb) [] ops /\ strictly_sorted ltb (content (sroot s)) /\ fields_right (sroot s) /\
    (levels (sroot s) <= 127 -> stol_step cmp shift s SHeight = Some (s, SInt8 (levels (sroot s)))).
  Proof.
    intros Ho. assert (R0 : Rel snew []) by (unfold Rel; cbn; repeat split; auto; constructor).
    destruct (run_ok ops Ho snew [] R0) as (s & H1 & H2 & H3). exists s. pose proof (rel_right _ _ H3) as HF. destruct H3 as (Hc & Hn & Hs & Hz & Hg).
    split; [exact H1|]. split; [exact H2|]. split; [exact Hc|]. split; [rewrite Hc; exact Hs|]. split; [exact HF|]. intros HL. cbn [stol_step].
    destruct (Nat.eqb_spec (scount s) 0) as [E0|E0].
    - rewrite Hn, <- Hc in E0. destruct (sroot s) as [|? ? ? ? ? l r] eqn:Er; [reflexivity|]. cbn [content] in E0. rewrite app_length in E0. cbn in E0. lia.
    - rewrite (height_good _ Hg HL). reflexivity.
  Qed.

  Lemma cmp_self k : cmp k k = 0.
  Proof.
    destruct (Hcmp k k) as (H1 & H2). pose proof (wo_irrefl _ W k) as Hi. destruct (Z.lt_trichotomy (cmp k k) 0) as [L|[L|L]]; [|exact L|].
    - apply H1 in L. congruence.
    - apply H2 in L. congruence.
  Qed.
  (** Get does not find the only key there is, and finds any greater one that is not there: for every order and comparator. *)
  Theorem C67_get_refuted (k other : K) (v : V) : ltb k other = true ->
    run (stol_step cmp shift) snew [SPut k v; SGet k; SGet other] = Some [SBool true; SVal None; SVal (Some v)] /\
    srun (growing_spec ltb) [] [SPut k v; SGet k; SGet other] = [SBool true; SVal (Some v); SVal None].
  Proof.
    intros L. assert (H0 : (cmp k other <? 0) = true) by (apply Z.ltb_lt; apply Hcmp; exact L). split.
    - cbn. rewrite (cmp_self k). cbn. rewrite H0. reflexivity.
    - cbn. unfold sames, same. cbn. rewrite L, (wo_irrefl _ W k). reflexivity.
  Qed.
End Proofs.

(** With a negative shift the third of three increasing keys panics. *)
Theorem C67_negative_shift_refuted {K V} (ltb : K -> K -> bool) (W : weak_order ltb) (cmp : K -> K -> Z) (Hcmp : sign_cmp ltb cmp) (shift : Z) (a b c : K) (v : V) :
  shift < 0 -> ltb a b = true -> ltb b c = true -> run (stol_step cmp shift) snew [SPut a v; SPut b v; SPut c v] = None.
Proof.
  intros Hs L1 L2. pose proof (wo_trans _ W _ _ _ L1 L2) as L3.
  assert (H1 : (cmp a b <? 0) = true) by (apply Z.ltb_lt, Hcmp; exact L1). assert (H2 : (cmp b c <? 0) = true) by (apply Z.ltb_lt, Hcmp; exact L2).
  assert (H3 : (cmp a c <? 0) = true) by (apply Z.ltb_lt, Hcmp; exact L3). cbn. rewrite H1. cbn. rewrite H3. cbn. rewrite H2. cbn.
  apply Z.ltb_lt in Hs. rewrite Hs. reflexivity.
Qed.

(** With shift 0 nothing is ever rotated: after 128 increasing keys Height() is -128. *)
Definition increasing (n : nat) : list (stol_op Z Z) := map (fun i => SPut (Z.of_nat i) (Z.of_nat i)) (seq 0 n).
Theorem C67_height_refuted : exists s, reach (stol_step Z.sub 0) snew (increasing 128) = Some s /\ levels (sroot s) = 128 /\
  stol_step Z.sub 0 s SHeight = Some (s, SInt8 (-128)).
Proof. eexists. split; [vm_compute; reflexivity|]. split; vm_compute; reflexivity. Qed.

Print Assumptions C67_growing_sorted_partial.
Print Assumptions C67_get_refuted.
Print Assumptions C67_negative_shift_refuted.
Print Assumptions C67_height_refuted.

(** Increasing keys with the default shift 2: rotations, a refused key, the height at the end. *)
Example C67_case : Forall only_grows (increasing 20 ++ [SPut 7 70; SSize]) /\ sign_cmp Z.ltb ExpProps.sub_cmp /\ (Z.ltb 3 7 = true /\ Z.ltb 7 9 = true) /\
  option_map (fun l => skipn 20 l) (run (stol_step ExpProps.sub_cmp 2) snew (increasing 20 ++ [SPut 7 70; SSize; SHeight])) = Some [SBool false; SNat 20; SInt8 5].
Proof. split; [|split; [exact ExpProps.sub_sign|split; [split; reflexivity|vm_compute; reflexivity]]]. repeat constructor. Qed.
