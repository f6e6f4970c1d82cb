(** Memory behaviour of the array list: when it cannot run out of memory, and how it can. *)
From Verif Require Import Base Machine Slice QueueSpec ArrayListSpec ArrayListModel ArrayListProofs ArrayListProofs2.
Require Import ZifyBool ZifyNat.
Ltac Zify.zify_post_hook ::= Z.div_mod_to_equations.
Local Open Scope Z_scope.

Section P.
  Context {A : Type} (zero : A) (limit : Z).
  Hypothesis Hlim : 16 <= limit <= 2 ^ 62.
  Notation alist := (alist (A:=A)).
  Notation Rel := (Rel (A:=A) limit).
  Notation RelX := (RelX (A:=A) limit).
  Notation cap l := (lenZ (data l)).

  (** head slack as placed by a growth, minus what PushFront used since *)
  Definition hok (l : alist) : Prop :=
    cap l / 4 + 1 <= tailidx l /\ tailidx l - size l <= cap l / 4 + 2.

  Lemma lenZ_app (a b : list A) : lenZ (a ++ b) = lenZ a + lenZ b.
  Proof. unfold lenZ. rewrite app_length. lia. Qed.
  Lemma lenZ_nn (a : list A) : 0 <= lenZ a. Proof. unfold lenZ. lia. Qed.

  Lemma grow_hok cond B fuel : forall l c h t, RelX l c h t -> hok l -> limit < 2 ^ Z.of_nat fuel * cap l ->
    B <= limit ->
    (forall l h t, RelX l c h t -> hok l -> cond l = true -> 2 * cap l <= B) ->
    exists l' h' t', grow_while zero limit fuel cond l = Ok l' /\ RelX l' c h' t' /\ hok l' /\ cap l' <= Z.max (cap l) B.
  Proof.
    induction fuel as [|fuel IH]; intros l c h t HR Hh Hf HB Hc; cbn [grow_while].
    - pose proof HR as [[? ?] ? ? ? ? ? ?]. change (2 ^ Z.of_nat 0) with 1 in Hf. lia.
    - destruct (cond l) eqn:Ec.
      + pose proof (Hc l h t HR Hh Ec) as H2.
        destruct (growth_rel zero limit Hlim l c h t HR) as [[_ E]|(l1 & E & E1 & HR1 & El & _)]; [lia|].
        rewrite E. cbn [bind].
        assert (El' : cap l1 = 2 * cap l) by (unfold lenZ; rewrite El; lia).
        destruct (IH l1 c _ _ HR1) as (l' & h' & t' & E' & HR' & Hh' & Hcap); auto.
        * pose proof HR1 as [? ? ? R4 R5 ? ?]. unfold hok. rewrite El', R4, R5. unfold lenZ in *. lia.
        * rewrite El'. replace (Z.of_nat (S fuel)) with (1 + Z.of_nat fuel) in Hf by lia. rewrite Z.pow_add_r in Hf by lia. lia.
        * exists l', h', t'. repeat (split; [assumption|]). lia.
      + exists l, h, t. repeat (split; [assumption||reflexivity|]). lia.
  Qed.

  (* without the placement invariant the first growth may double; afterwards it holds *)
  Lemma grow_any cond B : forall l c h t, RelX l c h t ->
    B <= limit -> 2 * cap l <= limit ->
    (forall l h t, RelX l c h t -> hok l -> cond l = true -> 2 * cap l <= B) ->
    exists l' h' t', grow_while zero limit 64 cond l = Ok l' /\ RelX l' c h' t' /\ cap l' <= Z.max (2 * cap l) B.
  Proof.
    intros l c h t HR HB H2 Hc. change 64%nat with (S 63). cbn [grow_while]. pose proof (lenZ_nn (data l)).
    destruct (cond l) eqn:Ec.
    - destruct (growth_rel zero limit Hlim l c h t HR) as [[_ E]|(l1 & E & E1 & HR1 & El & _)]; [lia|].
      rewrite E. cbn [bind].
      assert (El' : cap l1 = 2 * cap l) by (unfold lenZ; rewrite El; lia).
      destruct (grow_hok cond B 63 l1 c _ _ HR1) as (l' & h' & t' & E' & HR' & Hh' & Hcap); auto.
      + pose proof HR1 as [? ? ? R4 R5 ? ?]. unfold hok. rewrite El', R4, R5. unfold lenZ in *. lia.
      + rewrite El'. pose proof HR as [[? ?] ? ? ? ? ? ?]. change (2 ^ Z.of_nat 63) with (2 ^ 63). unfold lenZ in *. lia.
      + exists l', h', t'. repeat (split; [assumption|]). lia.
    - exists l, h, t. repeat (split; [assumption||reflexivity|]). lia.
  Qed.

  Lemma grow_while_cond cond fuel : forall l l1, grow_while zero limit fuel cond l = Ok l1 -> cond l1 = false.
  Proof.
    induction fuel as [|fuel IH]; intros l l1; cbn [grow_while]; destruct (cond l) eqn:Ec; try discriminate; try congruence.
    destruct (growth zero limit l) as [l2| |]; cbn [bind]; try discriminate. apply IH.
  Qed.

  Definition cond_back (p : Z) (l : alist) := lenZ (data l) <? u (tailidx l + p).
  Definition cond_front (p : Z) (l : alist) := 2 ^ 63 <? u (headidx l + 1 - p).
  Lemma cond_back_cap c p : 0 <= p < 2 ^ 62 -> forall l h t, RelX l c h t -> hok l -> cond_back p l = true -> 2 * cap l <= 8 * (1 + lenZ c + p).
  Proof.
    intros Hp l h t [[? ?] [? ?] ? R4 R5 ? ?] [Ha Hb]. unfold cond_back. rewrite R4, R5 in *. unfold lenZ in *.
    rewrite u_small by lia. lia.
  Qed.
  Lemma cond_front_cap c (vs : list A) : lenZ vs < 2 ^ 62 -> forall l h t, RelX l c h t -> hok l -> cond_front (lenZ vs) l = true -> 2 * cap l <= 8 * (1 + lenZ c + lenZ vs).
  Proof.
    intros Hp l h t HR [Ha Hb]. unfold cond_front. rewrite (front_cond limit Hlim _ _ _ _ vs HR Hp).
    destruct HR as [[? ?] [? ?] ? R4 R5 ? ?]. rewrite R4, R5 in *.
    unfold lenZ in *. lia.
  Qed.

  Lemma cp_len (d : list A) off src d' : cp d off src = Some d' -> length d' = length d.
  Proof.
    unfold cp. destruct (_ && _) eqn:E; [|discriminate]. intros E1.
    unfold copy_at in E1. destruct (_ <=? _)%nat eqn:E2 in E1; [|discriminate]. injection E1 as <-.
    rewrite !app_length, !firstn_length, skipn_length. lia.
  Qed.
  (* results of the three pushes once the growth loop succeeded *)
  Lemma pushBack_fin l c vs l1 h1 t1 : lenZ vs < 2 ^ 62 ->
    grow_while zero limit 64 (cond_back (lenZ vs)) l = Ok l1 -> RelX l1 c h1 t1 ->
    exists l', pushBack zero limit l vs = Ok l' /\ cap l' = cap l1 /\ tailidx l' = tailidx l1 + lenZ vs /\ size l' = size l1 + lenZ vs.
  Proof.
    intros Hvs E HR1. pose proof (grow_while_cond _ _ _ _ E) as Ec.
    unfold pushBack. fold (cond_back (lenZ vs)). change (fun l0 : alist => lenZ (data l0) <? u (tailidx l0 + lenZ vs)) with (cond_back (lenZ vs)).
    rewrite E. cbn [bind]. pose proof HR1 as [[R1 R1'] [R2 R2'] R3 R4 R5 [R6a R6b] R7].
    unfold cond_back in Ec. unfold lenZ in *. rewrite R4, u_small in Ec by lia.
    destruct (back_loop_ok limit Hlim vs (data l1) t1) as (d & Eb & El & H1 & H2); [lia|unfold lenZ; lia|].
    rewrite R4, Eb. unfold obind; cbn [of_opt bind]. eexists; split; [reflexivity|].
    cbn [data tailidx size]. rewrite El, R5, u_small by lia. repeat split; lia.
  Qed.
  Lemma push_fin l c v l1 h1 t1 :
    grow_while zero limit 64 (cond_back 1) l = Ok l1 -> RelX l1 c h1 t1 ->
    exists l', push zero limit l v = Ok l' /\ cap l' = cap l1 /\ tailidx l' = tailidx l1 + 1 /\ size l' = size l1 + 1.
  Proof.
    intros E HR1. pose proof (grow_while_cond _ _ _ _ E) as Ec.
    unfold push. change (fun l0 : alist => lenZ (data l0) <? u (tailidx l0 + 1)) with (cond_back 1).
    rewrite E. cbn [bind]. pose proof HR1 as [[R1 R1'] [R2 R2'] R3 R4 R5 [R6a R6b] R7].
    unfold cond_back in Ec. unfold lenZ in *. rewrite R4, u_small in Ec by lia.
    rewrite R4, set_ok by lia. unfold obind; cbn [of_opt bind]. eexists; split; [reflexivity|].
    cbn [data tailidx size]. rewrite list_set_length, R5, !u_small by lia. repeat split; lia.
  Qed.
  Lemma pushFront_fin l c vs l1 h1 t1 : lenZ vs < 2 ^ 62 ->
    grow_while zero limit 64 (cond_front (lenZ vs)) l = Ok l1 -> RelX l1 c h1 t1 ->
    exists l', pushFront zero limit l vs = Ok l' /\ cap l' = cap l1 /\ tailidx l' = tailidx l1 /\ size l' = size l1 + lenZ vs.
  Proof.
    intros Hvs E HR1. pose proof (grow_while_cond _ _ _ _ E) as Ec.
    unfold pushFront. change (fun l0 : alist => 2 ^ 63 <? u (headidx l0 + 1 - lenZ vs)) with (cond_front (lenZ vs)).
    rewrite E. cbn [bind]. unfold cond_front in Ec. rewrite (front_cond limit Hlim _ _ _ _ vs HR1 Hvs) in Ec.
    pose proof HR1 as [[R1 R1'] [R2 R2'] R3 R4 R5 [R6a R6b] R7]. unfold lenZ in *.
    destruct (front_loop_ok limit Hlim vs (data l1) h1) as (d & Eb & El & H1 & H2); [lia|lia|unfold lenZ; lia|].
    rewrite R3, Eb. unfold obind; cbn [of_opt bind]. eexists; split; [reflexivity|].
    cbn [data tailidx size]. rewrite El, R5, u_small by lia. repeat split; lia.
  Qed.

  Definition pushed (o : al_op A) : Z :=
    match o with APush _ => 1 | APushFront vs | APushBack vs => lenZ vs | _ => 0 end.
  Definition removes (o : al_op A) : bool :=
    match o with APopFront | APopBack | ARemove _ => true | _ => false end.

  Lemma shrink_cap l l' : shrink zero limit l = Ok l' -> cap l' <= cap l.
  Proof.
    unfold shrink. destruct (_ <=? 8); [intros E; injection E as <-; lia|].
    destruct (_ <=? _); [|intros E; injection E as <-; lia].
    unfold make. destruct (limit <? _); [discriminate|]. cbn [bind]. unfold obind.
    destruct (sl _ _ _) as [src|]; [|discriminate]. cbn [of_opt bind].
    destruct (cp _ _ _) as [d|] eqn:E; [|discriminate]. cbn [of_opt bind]. intros E1. injection E1 as <-. cbn [data].
    apply cp_len in E. rewrite repeat_length in E. unfold lenZ in *. rewrite E.
    unfold u. pose proof (Z.mod_pos_bound (Z.of_nat (length (data l)) - Z.of_nat (length (data l)) / 4) (2^64)).
    pose proof (Z.mod_le (Z.of_nat (length (data l)) - Z.of_nat (length (data l)) / 4) (2^64)). lia.
  Qed.

  Lemma lift_inv {X} (o : outcome X) f s r : lift (A:=A) o f = Some (s, r) ->
    (o = Oom /\ s = Dead) \/ exists x, o = Ok x /\ s = Live (fst (f x)).
  Proof.
    unfold lift. destruct o as [x| |]; [right|left|discriminate].
    - exists x. destruct (f x). split; [reflexivity|]. simpl. congruence.
    - split; congruence.
  Qed.
  Lemma popFront_cap l l' r : popFront zero limit l = Ok (l', r) -> cap l' <= cap l.
  Proof.
    unfold popFront. destruct (_ =? 0); [intros E; injection E as <- _; lia|]. unfold obind.
    destruct (get _ _) as [x|]; [|discriminate]. cbn [of_opt bind].
    destruct (shrink _ _ _) as [l1| |] eqn:E; try discriminate. cbn [bind]. intros E1. injection E1 as <- _.
    apply shrink_cap in E. exact E.
  Qed.
  Lemma popBack_cap l l' r : popBack zero limit l = Ok (l', r) -> cap l' <= cap l.
  Proof.
    unfold popBack. destruct (_ =? 0); [intros E; injection E as <- _; lia|]. unfold obind.
    destruct (get _ _) as [x|]; [|discriminate]. cbn [of_opt bind].
    destruct (shrink _ _ _) as [l1| |] eqn:E; try discriminate. cbn [bind]. intros E1. injection E1 as <- _.
    apply shrink_cap in E. exact E.
  Qed.
  Lemma remove_cap l i l' r : remove zero limit l i = Ok (l', r) -> cap l' <= cap l.
  Proof.
    unfold remove. destruct (_ <=? _); [discriminate|]. unfold obind.
    destruct (get _ _) as [x|]; [|discriminate]. cbn [of_opt bind].
    destruct (_ <? _); (destruct (sl _ _ _) as [src|]; [|discriminate]); cbn [of_opt bind];
      (destruct (cp _ _ _) as [d|] eqn:Ed; [|discriminate]); cbn [of_opt bind];
      (destruct (shrink _ _ _) as [l1| |] eqn:E; try discriminate); cbn [bind]; intros E1; injection E1 as <- _;
      apply shrink_cap in E; cbn [data] in E; apply cp_len in Ed; unfold lenZ in *; lia.
  Qed.
  Lemma set_idx_shape (l : alist) i v (l' : alist) : set_idx l i v = Ok l' -> cap l' = cap l /\ tailidx l' = tailidx l /\ size l' = size l.
  Proof.
    unfold set_idx, obind, set. destruct (_ && _); [|discriminate]. cbn [of_opt bind]. intros E; injection E as <-.
    cbn [data tailidx size]. unfold lenZ. rewrite list_set_length. auto.
  Qed.
  Lemma quiet_step l o l' r : step zero limit (Live l) o = Some (Live l', r) -> is_push o = false ->
    cap l' <= Z.max 8 (cap l) /\ (removes o = false -> (cap l' = cap l /\ tailidx l' = tailidx l /\ size l' = size l) \/ l' = clear zero l).
  Proof.
    intros E Hp.
    assert (Hs : l' = l -> cap l' <= Z.max 8 (cap l) /\ (removes o = false -> (cap l' = cap l /\ tailidx l' = tailidx l /\ size l' = size l) \/ l' = clear zero l)).
    { intros ->. split; [lia|auto]. }
    destruct o; try discriminate Hp; cbn [step removes] in *;
      try (apply lift_inv in E as [[_ E]|(x & E & E2)]; [discriminate|]; apply Hs; injection E2 as ->; reflexivity);
      try (apply Hs; injection E as <- _; reflexivity).
    - apply lift_inv in E as [[_ E]|([l1 x] & E & E2)]; [discriminate|]. injection E2 as ->. apply popFront_cap in E. split; [simpl; lia|discriminate].
    - apply lift_inv in E as [[_ E]|([l1 x] & E & E2)]; [discriminate|]. injection E2 as ->. apply popBack_cap in E. split; [simpl; lia|discriminate].
    - destruct (_ <=? _).
      + destruct (index l _); try discriminate. apply Hs; injection E as <- _; reflexivity.
      + apply lift_inv in E as [[_ E]|(x & E & E2)]; [discriminate|]; apply Hs; injection E2 as ->; reflexivity.
    - destruct (_ <=? _).
      + destruct (set_idx l _ _) as [l1| |] eqn:E1; [|apply Hs; congruence..].
        injection E as -> _. apply set_idx_shape in E1 as (? & ? & ?). split; [lia|auto].
      + apply lift_inv in E as [[_ E]|(x & E & E2)]; [discriminate|]. injection E2 as ->. apply set_idx_shape in E as (? & ? & ?). split; [simpl; lia|auto].
    - destruct (_ <=? _).
      + destruct (remove zero limit l _) as [[? ?]| |]; try discriminate. injection E as -> _. split; [lia|discriminate].
      + apply lift_inv in E as [[_ E]|([l1 x] & E & E2)]; [discriminate|]. injection E2 as ->. apply remove_cap in E. split; [simpl; lia|discriminate].
    - injection E as <- _. split; [unfold lenZ; simpl; lia|auto].
  Qed.

  Lemma lift_ok_live {X} (x : X) f s (r : al_out A) : lift (A:=A) (Ok x) f = Some (s, r) -> s = Live (fst (f x)).
  Proof. simpl. destruct (f x). simpl. congruence. Qed.

  (* one push, from any state or from a state with the placement invariant *)
  Lemma push_step l c o : Rel l c -> op_fits o -> is_push o = true -> 8 * (1 + lenZ c + pushed o) <= limit ->
    (2 * cap l <= limit -> exists l', step zero limit (Live l) o = Some (Live l', snd (al_spec c o)) /\ Rel l' (fst (al_spec c o)) /\
       cap l' <= Z.max (2 * cap l) (8 * (1 + lenZ c + pushed o))) /\
    (hok l -> exists l', step zero limit (Live l) o = Some (Live l', snd (al_spec c o)) /\ Rel l' (fst (al_spec c o)) /\
       hok l' /\ cap l' <= Z.max (cap l) (8 * (1 + lenZ c + pushed o))).
  Proof.
    intros HR Hf Hp HB. pose proof HR as (h & t & HRX).
    assert (Hfuel := fuel64 limit Hlim _ _ _ _ HRX).
    assert (Hmain : exists cond, (forall l h t, RelX l c h t -> hok l -> cond l = true -> 2 * cap l <= 8 * (1 + lenZ c + pushed o)) /\
      (forall l1 h1 t1, grow_while zero limit 64 cond l = Ok l1 -> RelX l1 c h1 t1 ->
         exists l', step zero limit (Live l) o = Some (Live l', AUnit) /\ cap l' = cap l1 /\ tailidx l1 <= tailidx l' /\
                    tailidx l' - size l' <= tailidx l1 - size l1)).
    { destruct o; try discriminate Hp; cbn [step pushed op_fits] in *.
      - exists (cond_back 1). split; [apply cond_back_cap; lia|]. intros l1 h1 t1 E HR1.
        destruct (push_fin l c v l1 h1 t1 E HR1) as (l' & E' & ? & ? & ?). exists l'. rewrite E'. repeat split; lia.
      - exists (cond_front (lenZ vs)). split; [apply cond_front_cap; lia|]. intros l1 h1 t1 E HR1. pose proof (lenZ_nn vs).
        destruct (pushFront_fin l c vs l1 h1 t1 Hf E HR1) as (l' & E' & ? & ? & ?). exists l'. rewrite E'. repeat split; lia.
      - exists (cond_back (lenZ vs)). pose proof (lenZ_nn vs). split; [apply cond_back_cap; lia|]. intros l1 h1 t1 E HR1.
        destruct (pushBack_fin l c vs l1 h1 t1 Hf E HR1) as (l' & E' & ? & ? & ?). exists l'. rewrite E'. repeat split; lia. }
    assert (Hu : snd (al_spec c o) = AUnit) by (destruct o; try discriminate Hp; reflexivity).
    destruct Hmain as (cond & Hc & Hfin).
    assert (Hrel : forall l', step zero limit (Live l) o = Some (Live l', AUnit) -> Rel l' (fst (al_spec c o))).
    { intros l' E. destruct (step_rel zero limit Hlim l c o HR Hf) as [[E' _]|(l2 & E' & HR')]; [congruence|].
      rewrite E in E'. injection E' as <- _. exact HR'. }
    rewrite Hu. split.
    - intros H2. destruct (grow_any cond _ l c h t HRX HB H2 Hc) as (l1 & h1 & t1 & E & HR1 & Hcap).
      destruct (Hfin l1 h1 t1 E HR1) as (l' & E' & Ec & _). exists l'. split; [assumption|]. split; [auto|]. rewrite Ec. assumption.
    - intros Hh. destruct (grow_hok cond _ 64 l c h t HRX Hh Hfuel HB Hc) as (l1 & h1 & t1 & E & HR1 & [Hh1 Hh2] & Hcap).
      destruct (Hfin l1 h1 t1 E HR1) as (l' & E' & Ec & Ht & Hs). exists l'. split; [assumption|]. split; [auto|].
      unfold hok. rewrite Ec. split; [lia|assumption].
  Qed.

  Definition total (ops : list (al_op A)) : Z := fold_right Z.add 0 (map pushed ops).
  Lemma pushed_nn o : 0 <= pushed o. Proof. destruct o; simpl; unfold lenZ; lia. Qed.
  Lemma total_cons o ops : total (o :: ops) = pushed o + total ops. Proof. reflexivity. Qed.
  Lemma total_nn ops : 0 <= total ops.
  Proof. induction ops as [|o ops IH]; unfold total in *; simpl; [lia|]. pose proof (pushed_nn o). lia. Qed.
  Lemma spec_len c o : lenZ (fst (al_spec c o)) <= lenZ c + pushed o.
  Proof.
    assert (Hd : forall i (c : list A), (length (delete_at i c) <= length c)%nat).
    { intros i c0; revert i; induction c0 as [|x c0 IH]; intros [|i]; simpl; try lia. specialize (IH i). lia. }
    assert (Hu : forall i (c : list A) v, (length (update_at i v c) = length c)%nat).
    { intros i c0 v; revert i; induction c0 as [|x c0 IH]; intros [|i]; simpl; try lia. rewrite IH. lia. }
    assert (Hr : (length (removelast c) <= length c)%nat).
    { clear. induction c as [|x [|y c] IH]; simpl in *; lia. }
    unfold lenZ. destruct o; cbn [al_spec fst pushed]; unfold lenZ; rewrite ?app_length, ?rev_length; simpl; try lia.
    - destruct c; simpl; lia.
    - rewrite Hu. lia.
    - specialize (Hd i c). lia.
  Qed.

  (* never out of memory while removals are absent *)
  Lemma grow_run ops : forall l c, Rel l c -> hok l -> cap l <= Z.max 8 (8 * (1 + lenZ c)) -> Forall op_fits ops ->
    existsb removes ops = false -> 8 * (1 + lenZ c + total ops) <= limit ->
    run (step zero limit) (Live l) ops = Some (srun al_spec c ops).
  Proof.
    induction ops as [|o ops IH]; intros l c HR Hh Hcap Hf Hr HB; [reflexivity|].
    inversion Hf as [|? ? Ho Hf']; subst. simpl in Hr. apply orb_false_iff in Hr as [Hr1 Hr2].
    rewrite total_cons in HB. pose proof (total_nn ops). pose proof (pushed_nn o). pose proof (lenZ_nn c).
    assert (Hst : exists l', step zero limit (Live l) o = Some (Live l', snd (al_spec c o)) /\ Rel l' (fst (al_spec c o)) /\
       hok l' /\ cap l' <= Z.max 8 (8 * (1 + lenZ (fst (al_spec c o))))).
    { destruct (is_push o) eqn:Ep.
      - destruct (push_step l c o HR Ho Ep) as [_ Hst]; [lia|]. destruct (Hst Hh) as (l' & E & HR' & Hh' & Hc').
        exists l'. repeat (split; [assumption|]).
        assert (lenZ (fst (al_spec c o)) = lenZ c + pushed o).
        { destruct o; try discriminate Ep; cbn [al_spec fst pushed]; rewrite lenZ_app; unfold lenZ; rewrite ?rev_length; simpl; lia. }
        lia.
      - destruct (step_rel zero limit Hlim l c o HR Ho) as [[_ E]|(l' & E & HR')]; [congruence|].
        exists l'. repeat (split; [assumption|]).
        pose proof (rel_bound limit Hlim _ _ HR') as [_ Hs']. pose proof (rel_bound limit Hlim _ _ HR) as [_ Hs].
        destruct (quiet_step l o l' _ E Ep) as [_ H2]. destruct (H2 Hr1) as [(H3 & H4 & H5)| ->].
        + unfold hok in *. rewrite H3, H4, H5. unfold lenZ in *. split; [assumption|lia].
        + unfold hok, lenZ in *. simpl. lia. }
    destruct Hst as (l' & E & HR' & Hh' & Hc'). cbn [run srun]. rewrite E.
    rewrite (IH l' _ HR' Hh' Hc' Hf' Hr2).
    - cbn [option_map]. destruct (al_spec c o); reflexivity.
    - pose proof (spec_len c o). lia.
  Qed.
  Lemma new_hok : hok (new zero). Proof. unfold hok, lenZ; simpl. lia. Qed.
  Theorem grow_run_ok ops : Forall op_fits ops -> existsb removes ops = false -> 8 * (1 + total ops) <= limit ->
    run (step zero limit) (Live (new zero)) ops = Some (srun al_spec [] ops).
  Proof.
    intros H1 H2 H3. apply grow_run; auto.
    - now apply new_rel.
    - apply new_hok.
    - unfold lenZ; simpl; lia.
  Qed.

  (* never out of memory within so many calls *)
  Lemma any_run ops : forall l c K, Rel l c -> cap l <= K -> 8 * (1 + lenZ c + total ops) <= K -> K * 2 ^ Z.of_nat (length ops) <= limit -> Forall op_fits ops ->
    run (step zero limit) (Live l) ops = Some (srun al_spec c ops).
  Proof.
    induction ops as [|o ops IH]; intros l c K HR Hcap HK HB Hf; [reflexivity|].
    inversion Hf as [|? ? Ho Hf']; subst.
    rewrite total_cons in HK. pose proof (total_nn ops). pose proof (pushed_nn o). pose proof (lenZ_nn c).
    cbn [length] in HB. replace (Z.of_nat (S (length ops))) with (1 + Z.of_nat (length ops)) in HB by lia.
    rewrite Z.pow_add_r in HB by lia. change (2 ^ 1) with 2 in HB. assert (0 < 2 ^ Z.of_nat (length ops)) by (apply Z.pow_pos_nonneg; lia).
    assert (2 * K <= limit) by nia.
    assert (Hst : exists l', step zero limit (Live l) o = Some (Live l', snd (al_spec c o)) /\ Rel l' (fst (al_spec c o)) /\ cap l' <= 2 * K).
    { destruct (is_push o) eqn:Ep.
      - destruct (push_step l c o HR Ho Ep) as [Hst _]; [lia|]. destruct Hst as (l' & E & HR' & Hc'); [lia|].
        exists l'. repeat (split; [assumption|]). lia.
      - destruct (step_rel zero limit Hlim l c o HR Ho) as [[_ E]|(l' & E & HR')]; [congruence|].
        exists l'. repeat (split; [assumption|]). destruct (quiet_step l o l' _ E Ep) as [H4 _]. lia. }
    destruct Hst as (l' & E & HR' & Hc'). cbn [run srun]. rewrite E.
    rewrite (IH l' _ (2 * K) HR' Hc').
    - cbn [option_map]. destruct (al_spec c o); reflexivity.
    - pose proof (spec_len c o). lia.
    - lia.
    - assumption.
  Qed.
  Theorem any_run_ok ops : Forall op_fits ops -> 8 * (1 + total ops) * 2 ^ Z.of_nat (length ops) <= limit ->
    run (step zero limit) (Live (new zero)) ops = Some (srun al_spec [] ops).
  Proof.
    intros H1 H2. apply (any_run ops (new zero) [] (8 * (1 + total ops))); auto.
    - now apply new_rel.
    - pose proof (total_nn ops). change (cap (new zero)) with 8. lia.
    - change (lenZ (@nil A)) with 0. lia.
  Qed.

  (** ** Capacity can grow without bound while the list stays small *)
  Notation st := (step zero limit).
  Definition at_ (s : astate (A:=A)) (c : list A) (h n : nat) (sh : Z) : Prop :=
    exists l t, s = Live l /\ RelX l c h t /\ length (data l) = n /\ shrinkSize l = sh.

  Lemma rl_len (c : list A) m : length c = S m -> length (removelast c) = m.
  Proof. revert m; induction c as [|x [|y c] IH]; intros m H; simpl in *; try lia. destruct m; [lia|]. rewrite (IH m); lia. Qed.

  Lemma pop_at s c h n sh m : at_ s c h n sh -> length c = S m -> exists s' r,
    st s APopBack = Some (s', r) /\
    if (8 <? Z.of_nat m) && (Z.of_nat m <=? sh)
    then at_ s' (removelast c) (m / 4 + 1) (n - n / 4) (Z.of_nat m - Z.of_nat m / 4)
    else at_ s' (removelast c) h n sh.
  Proof.
    intros (l & t & -> & HR & <- & <-) Hm. pose proof (rl_len c m Hm) as Hm'.
    destruct (popBack_rel zero limit Hlim l c h t HR) as (l1 & l' & E & HR1 & Es & Ed & Esh & _); [intros ->; discriminate|].
    destruct (shrink_rel zero limit Hlim l1 _ _ _ HR1) as (l2 & h2 & t2 & E2 & HR2 & Hshape).
    rewrite Es in E2. injection E2 as <-. cbn [step]. rewrite E. cbn [lift]. do 2 eexists; split; [reflexivity|].
    pose proof HR1 as [? ? ? ? R5 ? ?]. rewrite R5, Hm', Ed, Esh in Hshape.
    destruct (_ && _); exists l', t2.
    - destruct Hshape as (-> & -> & ->). auto.
    - destruct Hshape as [-> ->]. rewrite Ed. auto.
  Qed.
  Lemma push_at s c h n sh v : at_ s c (S h) n sh -> exists s' r, st s (APushFront [v]) = Some (s', r) /\ at_ s' (v :: c) h n sh.
  Proof.
    intros (l & t & -> & HR & <- & <-).
    destruct (pushFront_relX zero limit Hlim l c (S h) t [v] HR) as (l' & E & HR' & El & Es); [simpl; lia|].
    cbn [step]. rewrite E. cbn [lift]. do 2 eexists; split; [reflexivity|]. exists l', t. simpl in HR'. rewrite Nat.sub_0_r in HR'. auto.
  Qed.
  Lemma pushg_at s c n sh v : at_ s c 0 n sh ->
    if 2 * Z.of_nat n <=? limit then exists s' r, st s (APushFront [v]) = Some (s', r) /\
      at_ s' (v :: c) (n / 2) (2 * n) (lenZ c - lenZ c / 4)
    else st s (APushFront [v]) = Some (Dead, AOom).
  Proof.
    intros (l & t & -> & HR & <- & <-).
    assert (Ep : pushFront zero limit l [v] = bind (growth zero limit l) (fun l1 => bind (grow_while zero limit 63 (cond_front 1) l1) (fun l2 =>
        obind (front_loop [v] (data l2) (headidx l2)) (fun '(d, h) =>
    Ok {| data := d; headidx := h; tailidx := tailidx l2; size := u (size l2 + 1); shrinkSize := shrinkSize l2 |})))).
    { unfold pushFront at 1. change 64%nat with (S 63). cbn [grow_while].
      rewrite (front_cond limit Hlim _ _ _ _ [v] HR) by (unfold lenZ; simpl; lia). cbn [length Nat.leb negb].
      destruct (growth zero limit l); reflexivity. }
    destruct (growth_rel zero limit Hlim l c 0 t HR) as [[E0 E]|(l1 & E & E1 & HR1 & El & Esh)];
      destruct (Z.leb_spec (2 * Z.of_nat (length (data l))) limit); try (unfold lenZ in *; lia).
    { cbn [step]. rewrite Ep, E0. reflexivity. }
    destruct (pushFront_relX zero limit Hlim l1 c _ _ [v] HR1) as (l' & E' & HR' & El' & Es'); [simpl; lia|].
    assert (Hc : cond_front 1 l1 = false).
    { unfold cond_front. change 1 with (lenZ [v]) at 2. rewrite (front_cond limit Hlim _ _ _ _ [v] HR1) by (unfold lenZ; simpl; lia). cbn [length negb]. lia. }
    rewrite E in Ep. cbn [bind] in Ep. rewrite grow_while_false in Ep by assumption.
    unfold pushFront in E'. rewrite grow_while_false in E' by exact Hc. change (lenZ [v]) with 1 in E'. rewrite E' in Ep.
    cbn [step]. rewrite Ep. cbn [lift]. do 2 eexists; split; [reflexivity|]. do 2 eexists; split; [reflexivity|].
    pose proof HR as [? ? ? ? R5 ? ?]. unfold lenZ. rewrite Es', El', Esh, R5.
    split; [|split; [exact El|reflexivity]].
    replace (length (data l) / 2)%nat with (length (data l) / 2 + 1 - length [v])%nat by (simpl; lia). exact HR'.
  Qed.

  Definition cycle (v : A) : list (al_op A) := repeat APopBack 5 ++ repeat (APushFront [v]) 5.
  Definition small (ops : list (al_op A)) (c : list A) : Prop := forall k, (length (sreach al_spec c (firstn k ops)) <= 19)%nat.
  Lemma small_cons o ops c : (length c <= 19)%nat -> small ops (fst (al_spec c o)) -> small (o :: ops) c.
  Proof. intros H1 H2 [|k]; [exact H1|]. simpl. apply H2. Qed.
  Lemma small_nil c : (length c <= 19)%nat -> small [] c.
  Proof. intros H [|k]; exact H. Qed.
  Lemma small_app a : forall b c, small a c -> small b (sreach al_spec c a) -> small (a ++ b) c.
  Proof.
    induction a as [|o a IH]; intros b c H1 H2; [exact H2|]. simpl app. apply small_cons; [apply (H1 0%nat)|].
    apply IH; [|exact H2]. intros k. apply (H1 (S k)).
  Qed.
  Lemma reach_app a : forall s b s', reach st s a = Some s' -> reach st s (a ++ b) = reach st s' b.
  Proof.
    induction a as [|o a IH]; intros s b s' E; simpl in *; [congruence|].
    destruct (st s o) as [[s1 r]|]; [|discriminate]. now apply IH.
  Qed.

  Lemma cycle_at v s c h n : at_ s c h n 14 -> length c = 19%nat ->
    small (cycle v) c /\
    if 2 * Z.of_nat (n - n / 4) <=? limit
    then exists s' h', reach st s (cycle v) = Some s' /\ length (sreach al_spec c (cycle v)) = 19%nat /\
           at_ s' (sreach al_spec c (cycle v)) h' (2 * (n - n / 4)) 14
    else reach st s (cycle v) = Some Dead.
  Proof.
    intros H0 L0. unfold cycle. cbn [repeat app].
    destruct (pop_at _ _ _ _ _ 18 H0 L0) as (s1 & r1 & E1 & H1). pose proof (rl_len _ _ L0) as L1. cbn in H1.
    destruct (pop_at _ _ _ _ _ 17 H1 L1) as (s2 & r2 & E2 & H2). pose proof (rl_len _ _ L1) as L2. cbn in H2.
    destruct (pop_at _ _ _ _ _ 16 H2 L2) as (s3 & r3 & E3 & H3). pose proof (rl_len _ _ L2) as L3. cbn in H3.
    destruct (pop_at _ _ _ _ _ 15 H3 L3) as (s4 & r4 & E4 & H4). pose proof (rl_len _ _ L3) as L4. cbn in H4.
    destruct (pop_at _ _ _ _ _ 14 H4 L4) as (s5 & r5 & E5 & H5). pose proof (rl_len _ _ L4) as L5.
    change ((8 <? Z.of_nat 14) && (Z.of_nat 14 <=? 14)) with true in H5. cbv iota in H5. change (14 / 4 + 1)%nat with 4%nat in H5.
    set (c5 := removelast (removelast (removelast (removelast (removelast c))))) in *.
    destruct (push_at _ _ _ _ _ v H5) as (s6 & r6 & E6 & H6).
    destruct (push_at _ _ _ _ _ v H6) as (s7 & r7 & E7 & H7).
    destruct (push_at _ _ _ _ _ v H7) as (s8 & r8 & E8 & H8).
    destruct (push_at _ _ _ _ _ v H8) as (s9 & r9 & E9 & H9).
    split. { repeat (apply small_cons; [cbn [al_spec fst rev app length]; fold c5; lia|]). apply small_nil. cbn [al_spec fst rev app length]. fold c5. lia. }
    pose proof (pushg_at _ _ _ _ v H9) as H10. destruct (_ <=? limit).
    - destruct H10 as (s10 & r10 & E10 & H10). exists s10, ((n - n / 4) / 2)%nat.
      change (sreach al_spec c _) with (v :: v :: v :: v :: v :: c5).
      split. { cbn [reach]. rewrite E1, E2, E3, E4, E5, E6, E7, E8, E9, E10. reflexivity. }
      split; [simpl; lia|].
      replace (lenZ (v :: v :: v :: v :: c5) - lenZ (v :: v :: v :: v :: c5) / 4) with 14 in H10; [exact H10|].
      unfold lenZ. cbn [length]. rewrite L5. reflexivity.
    - cbn [reach]. rewrite E1, E2, E3, E4, E5, E6, E7, E8, E9, H10. reflexivity.
  Qed.

  Lemma sreach_app a : forall (c : list A) b, sreach al_spec c (a ++ b) = sreach al_spec (sreach al_spec c a) b.
  Proof. induction a as [|o a IH]; intros c b; simpl; auto. Qed.

  Lemma cycles v k : forall s c h n, at_ s c h n 14 -> length c = 19%nat -> limit < Z.of_nat n * 2 ^ Z.of_nat k -> exists j,
    (j <= 2 * k)%nat /\ let ops := concat (repeat (cycle v) j) in reach st s ops = Some Dead /\ small ops c.
  Proof.
    induction k as [|k IH]; intros s c h n H0 L0 Hk.
    - exfalso. change (2 ^ Z.of_nat 0) with 1 in Hk. destruct H0 as (l & t & _ & [[? ?] ? ? ? ? ? ?] & En & _). unfold lenZ in *. lia.
    - assert (Hn : (0 < n)%nat) by (destruct n; lia).
      destruct (cycle_at v _ _ _ _ H0 L0) as [Hs1 H1]. destruct (_ <=? limit).
      2:{ exists 1%nat. split; [lia|]. cbn [repeat concat]. rewrite app_nil_r. auto. }
      destruct H1 as (s1 & h1 & E1 & L1 & H1).
      destruct (cycle_at v _ _ _ _ H1 L1) as [Hs2 H2]. destruct (_ <=? limit).
      2:{ exists 2%nat. split; [lia|]. cbn [repeat concat]. rewrite app_nil_r, (reach_app _ _ _ _ E1). split; [assumption|]. now apply small_app. }
      destruct H2 as (s2 & h2 & E2 & L2 & H2).
      destruct (IH _ _ _ _ H2 L2) as (j & Hj & E & Hs).
      { replace (Z.of_nat (S k)) with (1 + Z.of_nat k) in Hk by lia. rewrite Z.pow_add_r in Hk by lia.
        assert (0 < 2 ^ Z.of_nat k) by (apply Z.pow_pos_nonneg; lia).
        assert (2 * Z.of_nat n <= Z.of_nat (2 * (2 * (n - n / 4) - 2 * (n - n / 4) / 4))) by lia. nia. }
      exists (2 + j)%nat. split; [lia|]. cbn [repeat concat Nat.add]. rewrite (reach_app _ _ _ _ E1), (reach_app _ _ _ _ E2).
      split; [assumption|]. apply small_app; [assumption|]. apply small_app; [assumption|]. assumption.
  Qed.

  Lemma fill_at v : 64 <= limit -> exists s c h, reach st (Live (new zero)) (repeat (APushFront [v]) 19) = Some s /\
     sreach al_spec [] (repeat (APushFront [v]) 19) = c /\ length c = 19%nat /\ at_ s c h 64 14.
  Proof.
    intros H64.
    assert (H0 : at_ (Live (new zero)) [] 4 8 0).
    { exists (new zero), 4%nat. split; [reflexivity|]. split; [|auto]. constructor; unfold lenZ; simpl; auto; try lia. }
    assert (HP : forall j s c h n sh, at_ s c (j + h) n sh -> exists s', reach st s (repeat (APushFront [v]) j) = Some s' /\ at_ s' (repeat v j ++ c) h n sh).
    { induction j as [|j IHj]; intros s c h n sh H; [exists s; auto|].
      destruct (push_at s c (j + h) n sh v H) as (s1 & r & E & H1). destruct (IHj _ _ _ _ _ H1) as (s2 & E2 & H2).
      exists s2. cbn [repeat reach]. rewrite E. split; [assumption|].
      replace ((v :: repeat v j) ++ c) with (repeat v j ++ v :: c); [assumption|].
      change (v :: c) with ([v] ++ c). rewrite app_assoc. f_equal. symmetry. exact (repeat_cons j v). }
    assert (HG : forall s c n sh, at_ s c 0 n sh -> 2 * Z.of_nat n <= limit -> exists s', reach st s [APushFront [v]] = Some s' /\ at_ s' (v :: c) (n / 2) (2 * n) (lenZ c - lenZ c / 4)).
    { intros s c n sh H Hn. pose proof (pushg_at s c n sh v H) as HH. destruct (Z.leb_spec (2 * Z.of_nat n) limit); [|lia].
      destruct HH as (s' & r & E & H'). exists s'. cbn [reach]. rewrite E. auto. }
    destruct (HP 4%nat _ _ 0%nat _ _ H0) as (s1 & E1 & H1).
    destruct (HG _ _ _ _ H1) as (s2 & E2 & H2); [lia|]. 
    destruct (HP 4%nat _ _ 0%nat _ _ H2) as (s3 & E3 & H3).
    destruct (HG _ _ _ _ H3) as (s4 & E4 & H4); [simpl; lia|].
    destruct (HP 8%nat _ _ 0%nat _ _ H4) as (s5 & E5 & H5).
    destruct (HG _ _ _ _ H5) as (s6 & E6 & H6); [simpl; lia|].
    exists s6, (repeat v 19), 16%nat.
    split; [|split; [reflexivity|split; [reflexivity|exact H6]]].
    change (repeat (APushFront [v]) 19) with (repeat (APushFront [v]) 4 ++ [APushFront [v]] ++ repeat (APushFront [v]) 4 ++ [APushFront [v]] ++ repeat (APushFront [v]) 8 ++ [APushFront [v]]).
    rewrite (reach_app _ _ _ _ E1), (reach_app _ _ _ _ E2), (reach_app _ _ _ _ E3), (reach_app _ _ _ _ E4), (reach_app _ _ _ _ E5). exact E6.
  Qed.

  Theorem blowup (v : A) k : 64 <= limit -> limit < 64 * 2 ^ Z.of_nat k -> exists ops,
    reach st (Live (new zero)) ops = Some Dead /\
    (length ops <= 19 + 20 * k)%nat /\
    (forall j, (length (sreach al_spec [] (firstn j ops)) <= 19)%nat) /\
    Forall (fun o => o = APopBack \/ o = APushFront [v]) ops.
  Proof.
    intros H64 Hk. destruct (fill_at v H64) as (s & c & h & E & Ec & L & H).
    destruct (cycles v k s c h 64 H L Hk) as (j & Hj & E2 & Hs).
    exists (repeat (APushFront [v]) 19 ++ concat (repeat (cycle v) j)).
    split; [now rewrite (reach_app _ _ _ _ E)|]. split; [|split].
    - rewrite app_length, repeat_length. assert (length (concat (repeat (cycle v) j)) = (10 * j)%nat).
      { clear. induction j as [|j IH]; [reflexivity|]. cbn [repeat concat]. rewrite app_length, IH. unfold cycle. simpl. lia. }
      lia.
    - apply small_app; [|rewrite Ec; assumption]. cbn [repeat].
      repeat (apply small_cons; [cbn [al_spec fst rev app length]; lia|]). apply small_nil. simpl. lia.
    - apply Forall_app. split.
      + apply Forall_forall. intros o Ho. apply repeat_spec in Ho. auto.
      + apply Forall_forall. intros o Ho. apply in_concat in Ho as (x & Hx & Ho). apply repeat_spec in Hx. subst x.
        unfold cycle in Ho. apply in_app_iff in Ho as [Ho|Ho]; apply repeat_spec in Ho; auto.
  Qed.
End P.
