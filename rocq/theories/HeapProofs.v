From Verif Require Import Base Machine HeapSpec HeapModel.
Require Import ZifyBool ZifyNat.
Ltac Zify.zify_post_hook ::= Z.div_mod_to_equations.

Lemma nth_firstn_lt {A} (l : list A) n i d : i < n -> nth i (firstn n l) d = nth i l d.
Proof. revert n i; induction l as [|h t IH]; intros [|n] [|i] H; simpl; auto; try lia. apply IH; lia. Qed.
Lemma firstn_list_set {A} (l : list A) n i x : firstn n (list_set l i x) = list_set (firstn n l) i x.
Proof. revert n i; induction l as [|h t IH]; intros [|n] [|i]; simpl; auto. f_equal; apply IH. Qed.
Lemma nth_error_nth_lt {A} (l : list A) i d : i < length l -> nth_error l i = Some (nth i l d).
Proof. apply nth_error_nth'. Qed.

Lemma list_set_perm {A} (l : list A) i v d : i < length l -> Permutation (nth i l d :: list_set l i v) (v :: l).
Proof.
  revert i; induction l as [|h t IH]; intros [|i] H; simpl in *; try lia.
  - constructor.
  - rewrite perm_swap, (perm_swap h v t). constructor. apply IH; lia.
Qed.
Lemma swap_perm {A} (l : list A) i j v d : i <> j -> i < length l -> j < length l ->
  Permutation (list_set (list_set l i (nth j l d)) j v) (list_set l i v).
Proof.
  intros Hij Hi Hj. set (a := nth j l d). set (m := list_set l i a).
  assert (Hm : nth j m d = a). { unfold m. rewrite nth_list_set by assumption. destruct (Nat.eqb_spec i j); [congruence|reflexivity]. }
  assert (H1 : Permutation (a :: list_set m j v) (v :: m)).
  { rewrite <- Hm. apply list_set_perm. unfold m. now rewrite list_set_length. }
  pose proof (list_set_perm l i a d Hi) as H2. fold m in H2.
  pose proof (list_set_perm l i v d Hi) as H3.
  set (x := nth i l d) in *.
  apply (Permutation_cons_inv (a := a)). apply (Permutation_cons_inv (a := x)).
  rewrite H1. rewrite perm_swap, H2. rewrite perm_swap, <- H3. apply perm_swap.
Qed.

Section P.
  Context {A : Type} (zero : A) (le : A -> A -> Prop) (compare : A -> A -> Z) (Hag : agrees le compare).
  Notation "l @ i" := (nth i l zero) (at level 20).
  Notation heap := (heap (A:=A)).

  (* heap order among the first n *)
  Definition ordered (l : list A) (n : nat) : Prop :=
    forall i, 0 < i < n -> le (l @ ((i-1)/2)) (l @ i).
  Definition live (h : heap) : list A := firstn (size h) (elements h).
  Definition Inv (h : heap) : Prop :=
    size h <= length (elements h) /\ 16 <= length (elements h) /\ ordered (elements h) (size h).

  Lemma set_at_ok (l : list A) i v : i < length l -> set_at l i v = Some (list_set l i v).
  Proof. intros H; unfold set_at. destruct (Nat.ltb_spec i (length l)); [reflexivity|lia]. Qed.

  Lemma sift_up_ok fuel : forall els n c v,
    c < fuel -> c < n -> n <= length els ->
    (forall i, 0 < i < n -> i <> c -> (i-1)/2 <> c -> le (els @ ((i-1)/2)) (els @ i)) ->
    (forall i, 0 < i < n -> (i-1)/2 = c -> le v (els @ i) /\ (0 < c -> le (els @ ((c-1)/2)) (els @ i))) ->
    exists els', sift_up compare fuel els c v = Some els' /\ length els' = length els /\
      ordered els' n /\ Permutation (firstn n els') (firstn n (list_set els c v)).
  Proof.
    induction fuel as [|fuel IH]; intros els n c v Hf Hc Hn H1 H2; [lia|]. cbn [sift_up].
    assert (Hfin : (0 < c -> le (els @ ((c-1)/2)) v) ->
      ordered (list_set els c v) n).
    { intros Hp i Hi. rewrite !nth_list_set by lia.
      destruct (Nat.eqb_spec c i) as [E|E].
      - subst i. destruct (Nat.eqb_spec c ((c-1)/2)); [lia|]. apply Hp; lia.
      - destruct (Nat.eqb_spec c ((i-1)/2)) as [E2|E2].
        + apply H2; [assumption|congruence].
        + apply H1; auto. }
    destruct (Nat.eqb_spec c 0) as [E0|E0].
    - rewrite set_at_ok by lia. eexists; split; [reflexivity|]. rewrite list_set_length.
      repeat split; auto. apply Hfin; lia.
    - set (p := (c-1)/2) in *. assert (Hp : p < c) by (unfold p; lia).
      rewrite (nth_error_nth_lt els p zero) by lia.
      destruct (Z.leb_spec (compare v (els @ p)) 0) as [Hle|Hgt].
      + rewrite set_at_ok by lia. apply (ag_le _ _ Hag) in Hle.
        destruct (IH (list_set els c (els @ p)) n p v) as (els' & E & El & Ho & Hperm); try lia.
        * rewrite list_set_length; lia.
        * intros i Hi Hne Hpne. rewrite !nth_list_set by lia.
          destruct (Nat.eqb_spec c i) as [Ei|Ei].
          { subst i. exfalso; apply Hpne. reflexivity. }
          destruct (Nat.eqb_spec c ((i-1)/2)) as [Ei2|Ei2].
          { destruct (H2 i Hi) as [_ Hx]; [congruence|]. apply Hx; lia. }
          apply H1; auto.
        * intros i Hi Hpi. rewrite !nth_list_set by lia.
          assert (Hpp : 0 < p -> le (els @ ((p-1)/2)) (els @ p)).
          { intros Hp0. apply H1; lia. }
          destruct (Nat.eqb_spec c i) as [Ei|Ei].
          { split; [exact Hle|]. intros Hp0. destruct (Nat.eqb_spec c ((p-1)/2)); [lia|]. auto. }
          assert (Hpi' : le (els @ p) (els @ i)).
          { rewrite <- Hpi. apply H1; auto. lia. }
          split; [eapply (ag_trans _ _ Hag); eassumption|].
          intros Hp0. destruct (Nat.eqb_spec c ((p-1)/2)); [lia|]. eapply (ag_trans _ _ Hag); eauto.
        * exists els'. rewrite E. split; [reflexivity|]. rewrite El, list_set_length. repeat split; auto.
          rewrite Hperm, !firstn_list_set.
          rewrite <- (nth_firstn_lt els n p zero) by lia.
          apply swap_perm; try rewrite firstn_length; lia.
      + rewrite set_at_ok by lia. eexists; split; [reflexivity|]. rewrite list_set_length.
        repeat split; auto. apply Hfin. intros _. apply (ag_ge _ _ Hag). lia.
  Qed.

  Lemma sift_down_ok fuel : forall els n c dv,
    n <= c + fuel -> 0 < fuel -> c < n -> n <= length els ->
    (forall i, 0 < i < n -> i <> c -> (i-1)/2 <> c -> le (els @ ((i-1)/2)) (els @ i)) ->
    (forall i, 0 < i < n -> (i-1)/2 = c -> 0 < c -> le (els @ ((c-1)/2)) (els @ i)) ->
    (0 < c -> le (els @ ((c-1)/2)) dv) ->
    exists els', sift_down compare fuel els n c dv = Some els' /\ length els' = length els /\
      ordered els' n /\ Permutation (firstn n els') (firstn n (list_set els c dv)).
  Proof.
    induction fuel as [|fuel IH]; intros els n c dv Hf Hf0 Hc Hn H1 H2 H3; [lia|]. cbn [sift_down].
    assert (Hfin : (forall i, 0 < i < n -> (i-1)/2 = c -> le dv (els @ i)) ->
      exists els', set_at els c dv = Some els' /\ length els' = length els /\
      ordered els' n /\ Permutation (firstn n els') (firstn n (list_set els c dv))).
    { intros Hd. rewrite set_at_ok by lia. eexists; split; [reflexivity|]. rewrite list_set_length.
      repeat split; auto. intros i Hi. rewrite !nth_list_set by lia.
      destruct (Nat.eqb_spec c i) as [E|E].
      - subst i. destruct (Nat.eqb_spec c ((c-1)/2)); [lia|]. apply H3; lia.
      - destruct (Nat.eqb_spec c ((i-1)/2)) as [E2|E2]; [apply Hd; auto|]. apply H1; auto. }
    assert (Hgo : forall ci, ci = 2*c+1 \/ ci = 2*c+2 -> ci < n ->
       (forall i, 0 < i < n -> (i-1)/2 = c -> le (els @ ci) (els @ i)) ->
       exists els', (match nth_error els ci with
          | None => None
          | Some cv =>
              if (compare cv dv <=? 0)%Z then
                match set_at els c cv with
                | None => None
                | Some els' => sift_down compare fuel els' n ci dv
                end
              else set_at els c dv
          end) = Some els' /\ length els' = length els /\
      ordered els' n /\ Permutation (firstn n els') (firstn n (list_set els c dv))).
    { intros ci Hci Hcin Hmin. rewrite (nth_error_nth_lt els ci zero) by lia.
      destruct (Z.leb_spec (compare (els @ ci) dv) 0) as [Hle|Hgt].
      - apply (ag_le _ _ Hag) in Hle. rewrite set_at_ok by lia.
        assert (Hpc : (ci-1)/2 = c) by lia.
        destruct (IH (list_set els c (els @ ci)) n ci dv) as (els' & E & El & Ho & Hperm); try lia.
        + rewrite list_set_length; lia.
        + intros i Hi Hne Hpne. rewrite !nth_list_set by lia.
          destruct (Nat.eqb_spec c i) as [Ei|Ei].
          { subst i. destruct (Nat.eqb_spec c ((c-1)/2)); [lia|]. apply H2; auto; lia. }
          destruct (Nat.eqb_spec c ((i-1)/2)) as [Ei2|Ei2]; [apply Hmin; auto|].
          apply H1; auto.
        + intros i Hi Hpi _. rewrite !nth_list_set by lia. rewrite Hpc, Nat.eqb_refl.
          destruct (Nat.eqb_spec c i); [lia|]. rewrite <- Hpi. apply H1; auto; lia.
        + intros _. rewrite nth_list_set by lia. rewrite Hpc, Nat.eqb_refl. assumption.
        + exists els'. rewrite E. split; [reflexivity|]. rewrite El, list_set_length. repeat split; auto.
          rewrite Hperm, !firstn_list_set. rewrite <- (nth_firstn_lt els n ci zero) by lia.
          apply swap_perm; try rewrite firstn_length; lia.
      - apply Hfin. intros i Hi Hpi. apply (ag_trans _ _ Hag _ (els @ ci)); [apply (ag_ge _ _ Hag); lia|auto]. }
    replace (S (2*c)) with (2*c+1) by lia.
    destruct (Nat.ltb_spec (2*c+2) n) as [Hc2|Hc2].
    - rewrite (nth_error_nth_lt els (2*c+1) zero) by lia.
      rewrite (nth_error_nth_lt els (2*c+2) zero) by lia.
      destruct (Z.ltb_spec (compare (els @ (2*c+1)) (els @ (2*c+2))) 0) as [Hlt|Hge].
      + apply Hgo; auto; [lia|]. intros i Hi Hpi. assert (i = 2*c+1 \/ i = 2*c+2) as [->| ->] by lia.
        apply (ag_refl _ _ Hag). apply (ag_le _ _ Hag); lia.
      + apply Hgo; auto. intros i Hi Hpi. assert (i = 2*c+1 \/ i = 2*c+2) as [->| ->] by lia.
        apply (ag_ge _ _ Hag); lia. apply (ag_refl _ _ Hag).
    - destruct (Nat.leb_spec n (2*c+1)) as [Hc1|Hc1].
      + apply Hfin. intros i Hi Hpi. lia.
      + apply Hgo; auto. intros i Hi Hpi. assert (i = 2*c+1) as -> by lia. apply (ag_refl _ _ Hag).
  Qed.

  Lemma root_first l n : ordered l n -> forall i, i < n -> le (l @ 0) (l @ i).
  Proof.
    intros Ho i. induction i as [i IH] using lt_wf_ind. intros Hi.
    destruct (Nat.eq_dec i 0) as [->|Hne]; [apply (ag_refl _ _ Hag)|].
    apply (ag_trans _ _ Hag _ (l @ ((i-1)/2))); [apply IH; lia|apply Ho; lia].
  Qed.

  Lemma firstn_snoc_nth (l : list A) n : n < length l -> firstn (S n) l = firstn n l ++ [l @ n].
  Proof.
    revert n; induction l as [|h t IH]; intros [|n] H; simpl in *; auto; try lia. f_equal. apply IH; lia.
  Qed.

  Lemma ordered_app (l l' : list A) n : n <= length l -> ordered l n -> ordered (l ++ l') n.
  Proof. intros Hn Ho i Hi. rewrite !app_nth1 by lia. apply Ho; lia. Qed.

  Lemma grow_inv (h : heap) : Inv h -> Inv (grow zero h) /\ size (grow zero h) = size h /\
      live (grow zero h) = live h /\ size h < length (elements (grow zero h)).
  Proof.
    intros (H1 & H2 & H3). unfold grow, live. destruct (Nat.leb_spec (length (elements h)) (size h)) as [E|E]; simpl.
    - rewrite app_length, repeat_length. repeat split; simpl; try rewrite app_length, repeat_length; try lia.
      + apply ordered_app; auto.
      + rewrite firstn_app. replace (size h - length (elements h)) with 0 by lia. simpl. now rewrite app_nil_r.
    - repeat split; auto.
  Qed.

  Lemma put_ok h v : Inv h -> exists h', put zero compare h v = Some h' /\ Inv h' /\
    size h' = S (size h) /\ Permutation (live h') (v :: live h).
  Proof.
    intros Hi. destruct (grow_inv h Hi) as ((G1 & G2 & G3) & G4 & G5 & G6).
    unfold put. set (g := grow zero h) in *. rewrite G4 in *.
    destruct (sift_up_ok (S (size h)) (elements g) (S (size h)) (size h) v) as (els' & E & El & Ho & Hp); try lia.
    - intros i Hi1 Hi2 Hi3. apply G3. lia.
    - rewrite E. simpl. eexists; split; [reflexivity|]. unfold Inv, live; simpl. repeat split; auto; try lia.
      rewrite Hp. rewrite firstn_snoc_nth by (rewrite list_set_length; lia).
      rewrite nth_list_set by lia. rewrite Nat.eqb_refl, firstn_list_set.
      rewrite <- Permutation_cons_append. constructor.
      unfold live in G5. rewrite G4 in G5.
      assert (Hs : forall (l : list A) i, length l <= i -> list_set l i v = l).
      { clear. induction l as [|x l IH]; intros [|i] H; simpl in *; auto; try lia. f_equal; apply IH; lia. }
      rewrite Hs by (rewrite firstn_length; lia). rewrite G5. reflexivity.
  Qed.

  Lemma slimming_inv (h : heap) : size h < length (elements h) -> 16 <= length (elements h) ->
    let h' := slimming h in size h' = size h /\ size h < length (elements h') /\ 16 <= length (elements h') /\
      firstn (S (size h)) (elements h') = firstn (S (size h)) (elements h).
  Proof.
    intros H1 H2. unfold slimming. destruct (Nat.leb_spec 32 (length (elements h))) as [E|E]; [|repeat split; auto].
    destruct (Nat.leb_spec (size h) (length (elements h) / 2)) as [E2|E2]; [|repeat split; auto].
    cbn [size elements]. rewrite firstn_length. repeat split; try lia.
    rewrite firstn_firstn. f_equal. lia.
  Qed.

  Lemma ordered_ext l l' n : (forall i, i < n -> l @ i = l' @ i) -> ordered l n -> ordered l' n.
  Proof. intros He Ho i Hi. rewrite <- !He by lia. apply Ho; assumption. Qed.

  Lemma pop_ok h : Inv h ->
    (size h = 0 /\ pop compare h = Some (h, None)) \/
    (0 < size h /\ exists h' x, pop compare h = Some (h', Some x) /\ Inv h' /\ size h = S (size h') /\
       Permutation (live h) (x :: live h') /\ forall y, In y (live h) -> le x y).
  Proof.
    intros (H1 & H2 & H3). unfold pop. destruct (Nat.eqb_spec (size h) 0) as [E|E]; [left; auto|right].
    split; [lia|]. rewrite (nth_error_nth_lt _ 0 zero) by lia.
    pose proof (slimming_inv {| size := size h - 1; elements := elements h |}) as Hs. simpl in Hs.
    set (g := slimming {| size := size h - 1; elements := elements h |}) in *.
    destruct Hs as (S1 & S2 & S3 & S4); [lia|lia|]. replace (S (size h - 1)) with (size h) in S4 by lia.
    rewrite S1.
    assert (Hnth : forall i, i < size h -> elements h @ i = elements g @ i).
    { intros i Hi. rewrite <- (nth_firstn_lt _ (size h)), <- S4 by lia. apply nth_firstn_lt; lia. }
    assert (Hfirst : forall y, In y (live h) -> le (elements h @ 0) y).
    { intros y Hy. apply (In_nth _ _ zero) in Hy as (i & Hi & <-). unfold live in *.
      rewrite firstn_length in Hi. rewrite nth_firstn_lt by lia. apply (root_first _ (size h)); auto. lia. }
    assert (Hl : live h = firstn (size h - 1) (elements h) ++ [elements h @ (size h - 1)]).
    { unfold live. replace (size h) with (S (size h - 1)) at 1 by lia. apply firstn_snoc_nth; lia. }
    destruct (Nat.eqb_spec (size h - 1) 0) as [E1|E1].
    - exists g, (elements h @ 0). split; [reflexivity|]. unfold Inv. rewrite S1. repeat split; auto; try lia.
      + intros i Hi; lia.
      + rewrite Hl, E1. unfold live. rewrite S1, E1. simpl. reflexivity.
    - rewrite (nth_error_nth_lt _ (size h - 1) zero) by lia.
      destruct (sift_down_ok (S (size h - 1)) (elements g) (size h - 1) 0 (elements g @ (size h - 1)))
        as (els' & Es & El & Ho & Hp); try lia.
      + intros i Hi Hi1 Hi2. rewrite <- !Hnth by lia. apply H3; lia.
      + rewrite Es. simpl. exists {| size := size h - 1; elements := els' |}, (elements h @ 0).
        split; [reflexivity|]. unfold Inv; cbn [size elements]. repeat split; auto; try lia.
        unfold live at 2; cbn [size elements]. rewrite Hp.
        rewrite firstn_list_set. rewrite Hl.
        assert (Hfg : firstn (size h - 1) (elements g) = firstn (size h - 1) (elements h)).
        { apply (f_equal (firstn (size h - 1))) in S4. rewrite !firstn_firstn in S4.
          now replace (Nat.min (size h - 1) (size h)) with (size h - 1) in S4 by lia. }
        rewrite Hfg, <- (Hnth (size h - 1)) by lia.
        rewrite <- Permutation_cons_append.
        rewrite <- (nth_firstn_lt (elements h) (size h - 1) 0) by lia.
        symmetry. apply list_set_perm. rewrite firstn_length. lia.
  Qed.

  Definition Rel (h : heap) (bag : list A) : Prop := Inv h /\ Permutation (live h) bag.
  Lemma live_length h : Inv h -> length (live h) = size h.
  Proof. intros (H & _). unfold live. rewrite firstn_length. lia. Qed.

  Lemma step_ok h bag o : Rel h bag -> exists h' r bag', step zero compare h o = Some (h', r) /\
     heap_spec le bag o r bag' /\ Rel h' bag'.
  Proof.
    intros [Hi Hp]. pose proof (live_length _ Hi) as Hlen. pose proof (Permutation_length Hp) as Hlen2.
    assert (Hfo : forall x, (exists t, live h = x :: t) -> (forall y, In y (live h) -> le x y) -> first_of le bag x).
    { intros x (t & Ht) Hx. split.
      - apply (Permutation_in _ Hp). rewrite Ht; left; reflexivity.
      - intros y Hy. apply Hx. apply (Permutation_in _ (Permutation_sym Hp)); assumption. }
    destruct o; cbn [step option_map].
    - destruct (put_ok h v Hi) as (h' & E & Hi' & Hs & Hp'). rewrite E. simpl.
      exists h', HUnit, (v :: bag). repeat split; auto; try constructor; try apply Hi'.
      rewrite Hp'. constructor; assumption.
    - destruct (pop_ok h Hi) as [[E0 E]|(Hpos & h' & x & E & Hi' & Hs & Hp' & Hx)]; rewrite E; simpl.
      + destruct bag; [|simpl in *; lia]. exists h, (HVal None), []. repeat split; auto; try constructor; apply Hi.
      + exists h', (HVal (Some x)), (live h'). split; [reflexivity|]. split.
        * constructor.
          -- split. apply (Permutation_in _ Hp), (Permutation_in _ (Permutation_sym Hp')). left; reflexivity.
             intros y Hy. apply Hx, (Permutation_in _ (Permutation_sym Hp)); assumption.
          -- rewrite <- Hp; assumption.
        * split; [assumption|reflexivity].
    - unfold top. destruct (Nat.eqb_spec (size h) 0) as [E|E]; cbn [option_map].
      + destruct bag; [|simpl in *; lia]. exists h, (HVal None), []. repeat split; auto; try constructor; apply Hi.
      + destruct Hi as (I1 & I2 & I3). rewrite (nth_error_nth_lt _ 0 zero) by lia. simpl.
        exists h, (HVal (Some (elements h @ 0))), bag. split; [reflexivity|]. split; [|repeat split; auto].
        constructor. apply Hfo.
        * unfold live. destruct (elements h) as [|z l]; [simpl in *; lia|]. destruct (size h); [lia|]. simpl. eauto.
        * intros y Hy. apply (In_nth _ _ zero) in Hy as (i & Hii & <-). unfold live in *.
          rewrite firstn_length in Hii. rewrite nth_firstn_lt by lia. apply (root_first _ (size h)); auto. lia.
    - exists (clear h), HUnit, []. split; [reflexivity|]. split; [constructor|]. split; [|reflexivity].
      destruct Hi as (I1 & I2 & I3). unfold Inv, clear; simpl. repeat split; auto; try lia. intros i ?; lia.
    - exists (new zero), HUnit, []. split; [reflexivity|]. split; [constructor|]. split; [|reflexivity].
      unfold Inv, new; simpl. repeat split; try lia. intros i ?; lia.
    - exists h, (HNat (size h)), bag. split; [reflexivity|]. rewrite <- Hlen, Hlen2. split; [constructor|split; assumption].
    - exists h, (HBool (length bag =? 0)), bag. split; [|split; [constructor|split; assumption]].
      do 3 f_equal. lia.
  Qed.

  Lemma new_inv : Inv (new zero).
  Proof. unfold Inv, new; simpl. repeat split; try lia. intros i ?; lia. Qed.

  Lemma run_ok ops : forall h bag, Rel h bag ->
    exists rs, run (step zero compare) h ops = Some rs /\ heap_hist le bag ops rs.
  Proof.
    induction ops as [|o ops IH]; intros h bag HR; simpl.
    - eexists; split; [reflexivity|constructor].
    - destruct (step_ok h bag o HR) as (h' & r & bag' & E & Hs & HR'). rewrite E.
      destruct (IH h' bag' HR') as (rs & E2 & Hh). rewrite E2. simpl. eexists; split; [reflexivity|].
      econstructor; eassumption.
  Qed.

  Lemma heap_run_ok ops : exists rs, run (step zero compare) (new zero) ops = Some rs /\ heap_hist le [] ops rs.
  Proof. apply run_ok. split; [apply new_inv|reflexivity]. Qed.

  (* C04: fill then drain *)
  Lemma fill_ok vs : forall h bag, Rel h bag -> exists h',
     reach (step zero compare) h (map HPut vs) = Some h' /\ Rel h' (rev vs ++ bag) /\
     run (step zero compare) h (map HPut vs) = Some (map (fun _ => HUnit) vs).
  Proof.
    induction vs as [|v vs IH]; intros h bag HR; simpl.
    - exists h; auto.
    - destruct HR as [Hi Hp]. destruct (put_ok h v Hi) as (h' & E & Hi' & Hs & Hp'). rewrite E. simpl.
      destruct (IH h' (v :: bag)) as (h'' & E2 & HR2 & E3).
      { split; [assumption|]. rewrite Hp'. constructor; assumption. }
      exists h''. rewrite E2, E3, <- app_assoc. auto.
  Qed.
  Lemma drain_ok n : forall h bag, Rel h bag -> length bag = n -> exists out,
     run (step zero compare) h (repeat HPop (S n)) = Some (map (fun x => HVal (Some x)) out ++ [HVal None]) /\
     Permutation out bag /\ StronglySorted le out.
  Proof.
    induction n as [|n IH]; intros h bag [Hi Hp] Hn.
    - pose proof (live_length _ Hi) as HL. pose proof (Permutation_length Hp).
      destruct (pop_ok h Hi) as [[E0 E]|(Hpos & _)]; [|lia]. exists []. simpl. rewrite E. simpl.
      destruct bag; [|discriminate]. repeat split; constructor.
    - pose proof (live_length _ Hi) as HL. pose proof (Permutation_length Hp) as HPL.
      destruct (pop_ok h Hi) as [[E0 E]|(Hpos & h' & x & E & Hi' & Hs & Hp' & Hx)]; [lia|].
      pose proof (Permutation_length Hp') as HPL2. simpl in HPL2.
      destruct (IH h' (live h')) as (out & E2 & Hpo & Hso).
      { split; [assumption|reflexivity]. }
      { lia. }
      exists (x :: out). split; [|split].
      + change (repeat HPop (S (S n))) with (HPop (A:=A) :: repeat HPop (S n)). cbn [run step]. rewrite E.
        cbn [option_map]. rewrite E2. reflexivity.
      + rewrite Hpo, <- Hp', Hp. reflexivity.
      + constructor; [assumption|]. apply Forall_forall. intros y Hy. apply Hx.
        apply (Permutation_in _ (Permutation_sym Hp')). right. apply (Permutation_in _ Hpo); assumption.
  Qed.
  Lemma run_app_gen {S O R} (stp : S -> O -> option (S*R)) ops1 : forall s ops2 s' r1, reach stp s ops1 = Some s' ->
     run stp s ops1 = Some r1 -> run stp s (ops1 ++ ops2) = option_map (app r1) (run stp s' ops2).
  Proof.
    induction ops1 as [|o ops1 IH]; intros s ops2 s' r1 H1 H2; simpl in *.
    - injection H1 as <-. injection H2 as <-. destruct (run stp s ops2); reflexivity.
    - destruct (stp s o) as [[s1 r]|]; [|discriminate].
      destruct (run stp s1 ops1) as [rs|] eqn:E; [|discriminate]. injection H2 as <-.
      rewrite (IH _ ops2 _ _ H1 E). destruct (run stp s' ops2); reflexivity.
  Qed.
  Lemma heap_sort_ok vs : exists out,
     run (step zero compare) (new zero) (map HPut vs ++ repeat HPop (S (length vs))) =
       Some (map (fun _ => HUnit) vs ++ map (fun x => HVal (Some x)) out ++ [HVal None]) /\
     Permutation out vs /\ StronglySorted le out.
  Proof.
    destruct (fill_ok vs (new zero) []) as (h & E1 & HR & E2); [split; [apply new_inv|reflexivity]|].
    rewrite app_nil_r in HR.
    destruct (drain_ok (length vs) h (rev vs) HR) as (out & E3 & Hp & Hs); [apply rev_length|].
    exists out. rewrite (run_app_gen _ _ _ _ _ _ E1 E2), E3. repeat split; auto.
    rewrite Hp. symmetry. apply Permutation_rev.
  Qed.
End P.

Lemma cmp_ok_agrees {K} (cmp : K -> K -> Z) : cmp_ok cmp -> agrees (fun a b => (cmp a b <= 0)%Z) cmp.
Proof.
  intros H. constructor.
  - intros a. rewrite (cmp_refl _ H). lia.
  - apply (cmp_trans _ H).
  - auto.
  - intros a b Hab. apply (cmp_ge_le _ H); assumption.
Qed.
