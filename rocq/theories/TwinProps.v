(** tree/indextree/experiment against the packages it was copied from (C82), and its rotation counters (C81). *)
From Verif Require Import Base Bind Machine OrderSpec SMapSpec CompareModel AvlTree AvlSpec AvlModel RotSpec AvlCountModel AvlCountProofs IndexSpec IndexModel StatsModel ShiftModel
  CutSpec IndexCountModel IndexCountProofs ShiftCountModel TwinSpec TwinProofs.
From Verif Require AvlProps DeepProps IndexProps CountProps StatsProps ShiftProps ExpModel ExpProps IndexProofs SignProofs IndexShapeProofs.
Local Open Scope Z_scope.

(** ** ShiftToleranceTree *)
Section Shift.
  Context {K A : Type} (cmp : K -> K -> Z) (shift : Z).
  Implicit Types t : stree K A.
  Lemma sR_erase t c : ssizeRRotate t = option_map fst (ssizeRRotate_n t c).
  Proof. destruct t as [|s h b k v l [|ms mh mb mk mv ml mr]]; try reflexivity. cbn [ssizeRRotate ssizeRRotate_n]. destruct (_ >? _); [destruct (srrotate _); [|reflexivity]|]; destruct (slrotate _); reflexivity. Qed.
  Lemma sL_erase t c : ssizeLRotate t = option_map fst (ssizeLRotate_n t c).
  Proof. destruct t as [|s h b k v [|ms mh mb mk mv ml mr] r]; try reflexivity. cbn [ssizeLRotate ssizeLRotate_n]. destruct (_ <? _); [destruct (slrotate _); [|reflexivity]|]; destruct (srrotate _); reflexivity. Qed.
  Lemma sfix_erase st t c : sfixPut shift st t = option_map fst (sfixPut_n shift st t c).
  Proof.
    destruct t as [|s h b k v l r]; [reflexivity|]. cbn [sfixPut sfixPut_n]. destruct st as [|n|]; try reflexivity. destruct (shift <? 0); [reflexivity|]. cbv zeta.
    rewrite (sR_erase _ c), (sL_erase _ c). destruct (_ <? shl64 n); [|reflexivity].
    destruct (_ <? 0); destruct (_ <=? _); try reflexivity; [destruct (ssizeRRotate_n _ _) as [[]|]|destruct (ssizeLRotate_n _ _) as [[]|]]; reflexivity.
  Qed.
  Lemma sput_erase key v t : forall c, sput cmp shift key v t = option_map fst (sput_n cmp shift key v t c).
  Proof.
    induction t as [|s h b k x l IHl r IHr]; intros c; [reflexivity|]. cbn [sput sput_n]. rewrite (IHl c), (IHr c). destruct (_ <? 0); [|destruct (_ >? 0); [|reflexivity]].
    - destruct (sput_n cmp shift key v r c) as [[[r1 [st|]] c1]|]; try reflexivity. cbn [option_map fst]. rewrite (sfix_erase _ _ c1). destruct (sfixPut_n _ _ _ _) as [[[]]|]; reflexivity.
    - destruct (sput_n cmp shift key v l c) as [[[l1 [st|]] c1]|]; try reflexivity. cbn [option_map fst]. rewrite (sfix_erase _ _ c1). destruct (sfixPut_n _ _ _ _) as [[[]]|]; reflexivity.
  Qed.
  (** the calls among the steps: all but ResetBenchmarkStats and BenchmarkStats *)
  Definition s_calls (ops : list (cs_op K A)) : list (stol_op K A) := flat_map (fun o => match o with ZCall o => [o] | _ => [] end) ops.
  (** Counting, reading and resetting the counters does not touch the tree, and BenchmarkStats never panics: any comparison
      function, any shift. *)
  Theorem C81_shift_same_tree (ops : list (cs_op K A)) : option_map stol_of (reach (step_s cmp shift) snew_n ops) = reach (stol_step cmp shift) snew (s_calls ops).
  Proof.
    change (@snew K A) with (stol_of (@snew_n K A)). generalize (@snew_n K A). induction ops as [|o ops IH]; intros s; [reflexivity|].
    assert (Hst : forall t, exists st, sshapeStats t = Some st) by (intros t; rewrite sstats_sk; destruct (StatsProps.C65_stats_right (sk t)) as (st & -> & _); eauto).
    destruct o as [o| |]; cbn [s_calls flat_map app reach step_s].
    - destruct o as [k v|k| |]; cbn [stol_step].
      + rewrite (sput_erase _ _ _ (counts_s s)). destruct (sput_n _ _ _ _ _ _) as [[[t [st|]] c]|]; cbn [option_map fst]; [apply IH|apply IH|reflexivity].
      + destruct (sget _ _ _); [exact (IH (CS (stol_of s) (counts_s s)))|reflexivity].
      + exact (IH (CS (stol_of s) (counts_s s))).
      + exact (IH (CS (stol_of s) (counts_s s))).
    - exact (IH (CS (stol_of s) (0, 0)%nat)).
    - destruct (Hst (sroot (stol_of s))) as (st & ->). apply IH.
  Qed.
End Shift.
Print Assumptions C81_shift_same_tree.

Section Twin.
  Context {K A : Type} (ltb : K -> K -> bool) (W : weak_order ltb) (cmp : K -> K -> Z) (Hcmp : sign_cmp ltb cmp) (shift : Z) (Hsh : 0 <= shift).

  (** Whatever keys are put, a ShiftToleranceTree and a tree of tree/indextree with the same shift answer alike, are the same
      tree node by node, and agree on all that BenchmarkStats reports; Height() is the reported height as long as that fits
      into an int8. *)
  Theorem C82_shift_tree_is_index_tree (ops : list (tw_op K A)) : exists s answers,
    reach (step_s cmp shift) snew_n (map on_shift ops) = Some s /\ run (step_s cmp shift) snew_n (map on_shift ops) = Some answers /\
    let i := sreach (step_ix cmp shift) new_ix (map on_index ops) in
    Forall2 same_answer answers (srun (step_ix cmp shift) new_ix (map on_index ops)) /\
    alike (sroot (stol_of s)) (content i) /\
    exists st, shapeStats (content i) = Some st /\ step_s cmp shift s ZStats = Some (s, ZReport (counts_ix i) st) /\
      (sHeight st <= 127 -> step_s cmp shift s (ZCall SHeight) = Some (s, ZOut (SInt8 (sHeight st)))).
  Proof.
    assert (HS : forall t : tree K (option A), exists st, shapeStats t = Some st /\ sHeight st = ht t) by (intros t; destruct (StatsProps.C65_stats_right t) as (st & H1 & H2 & _); eauto).
    enough (H : forall s i, TRel ltb s i -> exists s' answers, reach (step_s cmp shift) s (map on_shift ops) = Some s' /\ run (step_s cmp shift) s (map on_shift ops) = Some answers /\
      Forall2 same_answer answers (srun (step_ix cmp shift) i (map on_index ops)) /\ TRel ltb s' (sreach (step_ix cmp shift) i (map on_index ops))).
    { destruct (H _ _ (trel_new ltb)) as (s & answers & H1 & H2 & H3 & H4). exists s, answers. split; [exact H1|]. split; [exact H2|]. cbv zeta. split; [exact H3|].
      revert H4. generalize (sreach (step_ix cmp shift) new_ix (map on_index ops)). intros i (T1 & T2 & T3 & T4 & T5).
      split; [rewrite <- T1; apply sk_alike|]. destruct (HS (content i)) as (st & S1 & S2). exists st. split; [exact S1|]. cbn [step_s]. rewrite sstats_sk, T1, S1, T2. split; [reflexivity|].
      intros HL. pose proof (C81_shift_same_tree cmp shift (map on_shift ops)) as HE. rewrite H1 in HE. cbn [option_map] in HE.
      assert (HO : Forall ShiftProps.only_grows (s_calls (map on_shift ops))) by (clear; induction ops as [|[] p IH]; cbn; auto; constructor; cbn; auto).
      destruct (ShiftProps.C67_growing_sorted_partial ltb W cmp Hcmp shift Hsh _ HO) as (s0 & _ & R & _ & _ & _ & G). rewrite <- HE in R. injection R as <-.
      assert (HV : forall t : stree K A, ShiftProps.levels t = ht (sk t)) by (induction t as [|? ? ? ? ? l IHl r IHr]; cbn [ShiftProps.levels sk ht]; [reflexivity|]; rewrite IHl, IHr; lia).
      rewrite HV, T1, <- S2 in G. rewrite (G HL), <- T2. destruct s; reflexivity. }
    induction ops as [|o ops IH]; intros s i HR; [exists s, []; split; [reflexivity|]; split; [reflexivity|]; split; [constructor|exact HR]|]. cbn [map reach run srun sreach].
    destruct (trel_step ltb W cmp Hcmp shift Hsh s i o) as (s1 & x & E1 & R1 & Q1 & _); [intros _; destruct (HS (content i)) as (st & -> & _); discriminate|exact HR|].
    rewrite E1. destruct (step_ix cmp shift i (on_index o)) as [i1 y]. cbn [fst snd] in *. destruct (IH s1 i1 R1) as (s2 & answers & -> & -> & F & R2).
    exists s2, (x :: answers). split; [reflexivity|]. split; [reflexivity|]. split; [constructor; assumption|exact R2].
  Qed.
End Twin.
Print Assumptions C82_shift_tree_is_index_tree.

(** ** what follows for ShiftToleranceTree *)
Section Follows.
  Context {K A : Type} (ltb : K -> K -> bool) (W : weak_order ltb) (cmp : K -> K -> Z) (Hcmp : sign_cmp ltb cmp) (shift : Z) (Hsh : 0 <= shift).
  Lemma bare_sk (t : stree K A) : bare t = strip (sk t).
  Proof. induction t as [|? ? ? ? ? l IHl r IHr]; cbn [bare sk strip]; congruence. Qed.
  Lemma shift_sound (ops : list (cs_op K A)) : forall s s', strictly_sorted ltb (elems (sk (sroot (stol_of s)))) -> sized (sk (sroot (stol_of s))) ->
    reach (step_s cmp shift) s ops = Some s' -> strictly_sorted ltb (elems (sk (sroot (stol_of s')))) /\ sized (sk (sroot (stol_of s'))).
  Proof.
    induction ops as [|o ops IH]; intros s s' H1 H2; cbn [reach]; [intros [= <-]; auto|]. destruct (step_s cmp shift s o) as [[s1 x]|] eqn:E1; [|discriminate]. intros H.
    destruct o as [[k v|k| |]| |]; cbn [step_s] in E1.
    - pose proof (sput_sk ltb W cmp Hcmp shift Hsh k v _ H2 H1 (counts_s s)) as HP. destruct (index_put ltb W cmp Hcmp shift Hsh k (Some v) _ (counts_s s) H1 H2) as (u & res & c' & P1 & P2 & P3 & _).
      rewrite P1 in HP. destruct (sput_n _ _ _ _ _ _) as [[[t1 res1] c1]|]; [|discriminate]. injection HP as X1 X2 X3. cbn [fst snd] in X1. subst u.
      apply (IH s1); auto; destruct res1; injection E1 as <- _; cbn [stol_of sroot]; assumption.
    - cbn [stol_step] in E1. destruct (sget _ _ _); [|discriminate]. injection E1 as <- _. now apply (IH (CS (stol_of s) (counts_s s))).
    - injection E1 as <- _. now apply (IH (CS (stol_of s) (counts_s s))).
    - injection E1 as <- _. now apply (IH (CS (stol_of s) (counts_s s))).
    - injection E1 as <- _. now apply (IH (CS (stol_of s) (0, 0)%nat)).
    - destruct (sshapeStats _); [|discriminate]. injection E1 as <- _. now apply (IH s).
  Qed.
  (** A Put makes of the tree what it makes of one that is never balanced, turned by as many rotations as it adds to the
      counters: none if the key was there, otherwise at most one. *)
  Theorem C81_shift_counters_exact (ops : list (cs_op K A)) k v s s' b : reach (step_s cmp shift) snew_n ops = Some s ->
    step_s cmp shift s (ZCall (SPut k v)) = Some (s', ZOut (SBool b)) -> exists singles doubles,
    turns singles doubles (ins ltb (fun e => e) k (Some v) (bare (sroot (stol_of s)))) (bare (sroot (stol_of s'))) /\
    fst (counts_s s') = (fst (counts_s s) + singles)%nat /\ snd (counts_s s') = (snd (counts_s s) + doubles)%nat /\
    (singles + doubles <= if b then 1 else 0)%nat.
  Proof.
    intros HR HP. destruct (shift_sound ops snew_n s) as (H1 & H2); [constructor|constructor|exact HR|]. rewrite !bare_sk. cbn [step_s] in HP.
    pose proof (sput_sk ltb W cmp Hcmp shift Hsh k v _ H2 H1 (counts_s s)) as HS. destruct (sput_n _ _ _ _ _ _) as [[[t1 res] c1]|]; [|discriminate].
    cbn [option_map] in HS. unfold psk in HS. cbn [fst snd] in HS. symmetry in HS. pose proof (iput_once _ _ _ _ _ _ _ _ _ _ HS) as HO.
    rewrite (put_n_signs shift cmp (SignProofs.sgn cmp)) in HS by (intros a; rewrite SignProofs.sgn_lt, SignProofs.sgn_gt; auto).
    apply (IndexShapeProofs.iput_turned ltb W _ (SignProofs.sgn_plain _ ltb W Hcmp)) in HS as (sg & db & T & C1 & C2).
    exists sg, db. assert (counts_s s' = c1 /\ sroot (stol_of s') = t1 /\ b = match res with None => false | Some _ => true end) as (-> & -> & ->)
      by (destruct res; injection HP as <- <-; auto).
    split; [exact T|]. split; [lia|]. split; [lia|]. destruct HO as [->|(-> & HO)]; [destruct res; lia|]. apply more_total in HO. unfold total in HO. lia.
  Qed.
End Follows.
Print Assumptions C81_shift_counters_exact.

(** ** experiment.Tree *)
Section Tree.
  Context {K V : Type} (ltb : K -> K -> bool) (W : weak_order ltb) (cmp dir : K -> K -> Z) (Hcmp : sign_cmp ltb cmp) (Hdir : ex_cmp (fun a b => ltb b a) dir) (d : Z).
  Lemma sides_dir a b : (dir a b <? 0) = negb ((cmp a b <? 0) || (cmp a b >? 0)) /\ (dir a b =? 0) = (cmp a b <? 0) /\ (cmp a b <? 0 = false -> (dir a b =? 1) = (cmp a b >? 0)).
  Proof.
    rewrite Z.gtb_ltb. pose proof (Hdir a b) as H. destruct (Hcmp a b) as (H1 & H2).
    destruct (Z.ltb_spec (cmp a b) 0) as [L|L]; destruct (Z.ltb_spec 0 (cmp a b)) as [G|G]; try lia; cbn [orb negb];
      destruct (ltb a b) eqn:Q1; destruct (ltb b a) eqn:Q2; rewrite H; try (exfalso; intuition (try congruence; lia)); auto.
  Qed.
  Lemma eput_avl hit key v (t : tree K V) : forall alone c, eput_n cmp d hit key v t alone c = AvlCountModel.put_n dir d hit key v t alone c.
  Proof.
    induction t as [|h ck cv l IHl r IHr]; intros alone c; [reflexivity|]. cbn [eput_n AvlCountModel.put_n]. rewrite IHl, IHr. destruct (sides_dir ck key) as (-> & -> & H).
    destruct (cmp ck key <? 0); [reflexivity|]. rewrite (H eq_refl). destruct (cmp ck key >? 0); reflexivity.
  Qed.
  (** calls that do not look for a key with get *)
  Definition insertion (o : n_op K V) : Prop := match o with NCall o => ExpProps.no_get o | _ => True end.
  (** As long as nothing is looked up or removed, experiment.Tree and tree/avl with the same threshold, the latter asked
      with the turned order in the form it needs, answer the same and are the same tree with the same counters. *)
  Theorem C82_tree_is_avl_tree (ops : list (n_op K V)) : Forall insertion ops ->
    run (estep_n cmp d) new_n ops = run (step_n dir d) new_n ops /\ reach (estep_n cmp d) new_n ops = reach (step_n dir d) new_n ops.
  Proof.
    intros H. generalize (@new_n K V). induction H as [|o ops Ho H IH]; intros s; [split; reflexivity|]. cbn [run reach].
    assert (E1 : estep_n cmp d s o = step_n dir d s o).
    { destruct o as [o| |]; try reflexivity. destruct o; try contradiction; cbn [estep_n step_n]; try reflexivity; unfold estore_n, store_n; rewrite eput_avl; reflexivity. }
    rewrite E1. destruct (step_n dir d s o) as [[s' x]|]; [|split; reflexivity]. destruct (IH s') as (-> & ->). split; reflexivity.
  Qed.
End Tree.
Print Assumptions C82_tree_is_avl_tree.

(** Counting does not touch experiment.Tree either. *)
Section Same.
  Context {K V : Type} (cmp : K -> K -> Z) (d : Z).
  Lemma eput_erase hit key v (t : tree K V) : forall alone c, ExpModel.put cmp d hit key v t alone = option_map fst (eput_n cmp d hit key v t alone c).
  Proof.
    induction t as [|h k w l IHl r IHr]; intros alone c; [reflexivity|]. cbn [ExpModel.put eput_n].
    destruct (cmp k key <? 0); [|destruct (cmp k key >? 0); [|destruct (hit (k, w)); reflexivity]].
    - rewrite (IHl _ c). destruct (eput_n cmp d hit key v l _ c) as [[[[l' ex] rb] c1]|]; cbn [option_map fst]; [|reflexivity].
      destruct (_ || _)%bool; [reflexivity|]. rewrite (rebalance_erase d _ c1). destruct (rebalance_n d _ c1) as [[[t b] c2]|]; reflexivity.
    - rewrite (IHr _ c). destruct (eput_n cmp d hit key v r _ c) as [[[[l' ex] rb] c1]|]; cbn [option_map fst]; [|reflexivity].
      destruct (_ || _)%bool; [reflexivity|]. rewrite (rebalance_erase d _ c1). destruct (rebalance_n d _ c1) as [[[t b] c2]|]; reflexivity.
  Qed.
  Lemma estep_erase (s : cavl K V) o : ExpModel.step cmp d (base s) o = match estep_n cmp d s (NCall o) with Some (s', NOut r) => Some (base s', r) | _ => None end.
  Proof.
    assert (HA : estep_n cmp d s (NCall o) = step_n cmp d s (NCall o) -> ExpModel.step cmp d (base s) o = AvlModel.step cmp Both d (base s) o ->
      ExpModel.step cmp d (base s) o = match estep_n cmp d s (NCall o) with Some (s', NOut r) => Some (base s', r) | _ => None end).
    { intros -> ->. rewrite step_erase. destruct (step_n cmp d s (NCall o)) as [[s' []]|]; reflexivity. }
    destruct o; try (apply HA; reflexivity); clear HA; destruct s as [[t n] c]; cbn [ExpModel.step estep_n base];
      unfold ExpModel.put_, ExpModel.set, ExpModel.upsert, eupsert_n, estore_n; cbn [base counts_of root size].
    1-3: rewrite (eput_erase _ _ _ _ _ c); destruct (eput_n cmp d _ _ _ _ _ c) as [[[[t' ex] rb] c1]|]; reflexivity.
    destruct (get cmp k t) as [[g|]|]; [destruct (get_write cmp k v t); reflexivity| |reflexivity]. unfold ExpModel.set. cbn [root size].
    rewrite (eput_erase _ _ _ _ _ c); destruct (eput_n cmp d _ _ _ _ _ c) as [[[[t' ex] rb] c1]|]; reflexivity.
  Qed.
  Theorem C81_experiment_same_tree (ops : list (n_op K V)) :
    option_map base (reach (estep_n cmp d) new_n ops) = reach (ExpModel.step cmp d) new (CountProps.calls ops).
  Proof.
    change (@new K V) with (base (@new_n K V)). generalize (@new_n K V). induction ops as [|o ops IH]; intros s; [reflexivity|].
    destruct o as [o| |]; cbn [CountProps.calls flat_map app reach].
    - rewrite estep_erase. destruct (estep_n cmp d s (NCall o)) as [[s' r]|] eqn:Es; [|reflexivity].
      assert (exists r', r = NOut r') as (r' & ->); [|apply IH].
      clear - Es. destruct o; cbn [estep_n step_n] in Es;
        repeat match type of Es with context [match ?x with Some _ => _ | None => None end] => destruct x as [[? ?]|]; [|discriminate] end; injection Es as _ <-; eauto.
    - exact (IH (CA (base s) (0, 0)%nat)).
    - apply IH.
  Qed.
End Same.
Print Assumptions C81_experiment_same_tree.

(** Since the two are the same tree, a ShiftToleranceTree gets as deep as an index tree does: n insertions of different keys
    can make more than n / 4 levels. *)
Lemma alike_levels {K A} (t : stree K A) u : alike t u -> ShiftProps.levels t = ht u.
Proof. induction 1 as [|s h b k v l r l' r' Hl IHl Hr IHr]; cbn [ShiftProps.levels ht]; [reflexivity|]. rewrite IHl, IHr. lia. Qed.
Theorem C82_shift_tree_linear_refuted m : exists ks s, length ks = (4 * m + 6)%nat /\
  run (step_s any 2) snew_n (map (fun k => ZCall (SPut k k)) ks) = Some (repeat (ZOut (SBool true)) (4 * m + 6)) /\
  reach (step_s any 2) snew_n (map (fun k => ZCall (SPut k k)) ks) = Some s /\ ShiftProps.levels (sroot (stol_of s)) = Z.of_nat m + 3.
Proof.
  destruct (DeepProps.C60_index_tree_linear_refuted m) as (ks & L & R & H). exists ks.
  assert (Hs : sign_cmp Z.ltb any) by (intros a b; rewrite (IndexProps.any_plain a b); destruct (Z.ltb_spec a b), (Z.ltb_spec b a); split; split; try lia; congruence).
  destruct (C82_shift_tree_is_index_tree (A := Z) Z.ltb Zltb_weak any Hs 2 ltac:(lia) (map (fun k => TwPut k k) ks)) as (s & answers & R1 & R2 & R3 & R4 & _). exists s.
  rewrite !map_map in *. cbn [on_shift on_index] in *.
  assert (HI : forall (l : list (ix_op Z Z)) i, srun (step_ix any 2) i (map YCall l) = map YOut (srun (step any 2) (content i) l) /\
    content (sreach (step_ix any 2) i (map YCall l)) = sreach (step any 2) (content i) l).
  { induction l as [|o l IH]; intros i; [split; reflexivity|]. cbn [map srun sreach step_ix]. pose proof (call_erase any 2 i o) as HE. destruct (call_ix any 2 i o) as [i1 y]. cbn [fst snd] in *.
    rewrite HE. destruct (IH i1) as (-> & ->). split; reflexivity. }
  rewrite <- (map_map (fun k => XPut k (Some k)) YCall) in R3, R4. destruct (HI (map (fun k => XPut k (Some k)) ks) new_ix) as (I1 & I2). rewrite I1 in R3. rewrite I2 in R4.
  cbn [content new_ix] in R3, R4. rewrite R in R3. split; [exact L|]. split; [|split; [exact R1|rewrite (alike_levels _ _ R4); exact H]].
  rewrite R2. f_equal. clear - R3. revert answers R3. generalize (4 * m + 6)%nat. intros n. induction n as [|n IH]; intros answers HF; cbn [repeat map] in *; inversion HF as [|x y xs ys Hxy HF' E1 E2]; subst; [reflexivity|].
  inversion Hxy; subst. f_equal. now apply IH.
Qed.
Print Assumptions C82_shift_tree_linear_refuted.

(** ** examples *)
Definition tw_puts (ks : list Z) : list (tw_op Z Z) := map (fun k => TwPut k (k * 10)) ks.
Definition tw_mixed : list (tw_op Z Z) :=
  tw_puts [50; 40; 60; 70; 80; 75; 10; 20; 30; 25; 40; 26; 27; 28; 29] ++ [TwStats; TwSize; TwReset] ++ tw_puts [1; 2; 3; 4; 5; 6; 6] ++ [TwStats; TwSize].
(** single and double rotations, refused keys, figures of the shape *)
Example C82_shift_case : sign_cmp Z.ltb ExpProps.sub_cmp /\
  option_map (filter (fun x => match x with ZReport _ _ => true | _ => false end)) (run (step_s ExpProps.sub_cmp 2) snew_n (map on_shift tw_mixed)) =
    Some [ZReport (4, 4)%nat (Stats 5 46 14 3 4); ZReport (2, 2)%nat (Stats 6 79 20 4 6)].
Proof. split; [exact ExpProps.sub_sign|]. vm_compute. reflexivity. Qed.

(** the hypotheses of the theorem on the counters, at a Put with a double rotation and at one that is refused *)
Example C81_shift_case : exists s s', reach (step_s ExpProps.sub_cmp 2) snew_n (map on_shift (tw_puts [50; 40; 80; 90; 60])) = Some s /\
  step_s ExpProps.sub_cmp 2 s (ZCall (SPut 70 0)) = Some (s', ZOut (SBool true)) /\ counts_s s = (0, 0)%nat /\ counts_s s' = (0, 1)%nat /\
  step_s ExpProps.sub_cmp 2 s (ZCall (SPut 90 0)) = Some (s, ZOut (SBool false)).
Proof. eexists _, _. split; [vm_compute; reflexivity|]. repeat split; vm_compute; reflexivity. Qed.
(** experiment.Tree and tree/avl with threshold 1, as New makes them *)
Definition en_mixed : list (n_op Z Z) := map (fun k => NCall (MPut k k)) [5; 3; 8; 1; 4; 3; 9; 10; 11; 7; 6] ++ [NStats; NCall (MSet 4 44); NReset; NCall (MInsertIfAbsent 12 0); NStats; NCall MValues].
Definition any_down (a b : Z) : Z := any_ex b a.
Lemma any_down_ex : ex_cmp (fun a b => Z.ltb b a) any_down.
Proof. intros a b. unfold any_down. apply AvlProps.zcmp_ex. Qed.
Example C82_tree_case : Forall insertion en_mixed /\ ex_cmp (fun a b => Z.ltb b a) any_down /\
  option_map (skipn 11) (run (estep_n ExpProps.sub_cmp 1) new_n en_mixed) =
    Some [NCounts (7, 7)%nat; NOut (MBool false); NUnit; NOut (MBool true); NCounts (2, 1)%nat; NOut (MVals [0; 11; 10; 9; 8; 7; 6; 5; 44; 3; 1])].
Proof. split; [repeat constructor|]. split; [exact any_down_ex|]. vm_compute. reflexivity. Qed.
