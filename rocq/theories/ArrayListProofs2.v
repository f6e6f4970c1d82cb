From Verif Require Import Base Machine Slice QueueSpec ArrayListSpec ArrayListModel ArrayListProofs CompareSpec.
Require Import ZifyBool ZifyNat.
Ltac Zify.zify_post_hook ::= Z.div_mod_to_equations.
Local Open Scope Z_scope.

Section P.
  Context {A : Type} (zero : A) (limit : Z).
  Hypothesis Hlim : 16 <= limit <= 2 ^ 62.
  Notation alist := (alist (A:=A)).
  Notation Rel := (Rel (A:=A) limit).
  Notation RelX := (RelX (A:=A) limit).

  Lemma run_dead ops : run (step zero limit) Dead ops = Some (repeat AOom (length ops)).
  Proof. induction ops as [|o ops IH]; simpl; auto. now rewrite IH. Qed.

  Lemma run_rel ops : forall l c, Rel l c -> Forall op_fits ops ->
    exists k, (k <= length ops)%nat /\
      run (step zero limit) (Live l) ops = Some (firstn k (srun al_spec c ops) ++ repeat AOom (length ops - k)).
  Proof.
    induction ops as [|o ops IH]; intros l c HR Hf.
    - exists 0%nat. simpl. auto.
    - inversion Hf as [|? ? Ho Hf']; subst. cbn [run].
      destruct (step_rel zero limit Hlim l c o HR Ho) as [[E _]|(l' & E & HR')]; rewrite E.
      + exists 0%nat. split; [lia|]. rewrite run_dead. simpl. reflexivity.
      + destruct (IH l' _ HR' Hf') as (k & Hk & E'). exists (S k). split; [simpl; lia|].
        rewrite E'. cbn [option_map srun]. destruct (al_spec c o); reflexivity.
  Qed.
  Lemma run_ok ops : Forall op_fits ops ->
    exists k, (k <= length ops)%nat /\
      run (step zero limit) (Live (new zero)) ops = Some (firstn k (srun al_spec [] ops) ++ repeat AOom (length ops - k)).
  Proof. apply run_rel, new_rel, Hlim. Qed.

  Lemma reach_dead ops : reach (step zero limit) Dead ops = Some Dead.
  Proof. induction ops as [|o ops IH]; simpl; auto. Qed.
  Lemma reach_rel ops : forall l c l', Rel l c -> Forall op_fits ops ->
    reach (step zero limit) (Live l) ops = Some (Live l') -> Rel l' (sreach al_spec c ops).
  Proof.
    induction ops as [|o ops IH]; intros l c l' HR Hf E.
    - simpl in *. congruence.
    - inversion Hf as [|? ? Ho Hf']; subst. cbn [reach] in E.
      destruct (step_rel zero limit Hlim l c o HR Ho) as [[E1 _]|(l1 & E1 & HR')]; rewrite E1 in E.
      + rewrite reach_dead in E. discriminate.
      + simpl. eapply IH; eassumption.
  Qed.
  Lemma reach_new ops l' : Forall op_fits ops ->
    reach (step zero limit) (Live (new zero)) ops = Some (Live l') -> Rel l' (sreach al_spec [] ops).
  Proof. apply reach_rel, new_rel, Hlim. Qed.

  (** ** Iterators *)
  Lemma valid_iff l c i : Rel l c -> it_valid {| al := l; cur := Z.of_nat i |} = (i <? length c)%nat.
  Proof. intros (h & t & [? ? ? ? R5 ? ?]). unfold it_valid; cbn [al cur]. rewrite R5. lia. Qed.
  Lemma value_at l c i : Rel l c -> (i < length c)%nat -> exists v, nth_error c i = Some v /\ it_value {| al := l; cur := Z.of_nat i |} = Ok v.
  Proof. intros HR Hi. unfold it_value; cbn [al cur]. apply (index_rel limit Hlim l c i HR Hi). Qed.
  Lemma skipn_nth (c : list A) : forall i v, nth_error c i = Some v -> skipn i c = v :: skipn (S i) c.
  Proof. induction c as [|y c IHl]; intros [|n] v Hx; simpl in *; try discriminate; [congruence|auto]. Qed.
  Lemma firstn_S_nth' (c : list A) : forall i v, nth_error c i = Some v -> firstn (S i) c = firstn i c ++ [v].
  Proof. induction c as [|y c IHl]; intros [|n] v Hx; simpl in *; try discriminate; [congruence|]. f_equal. now apply IHl. Qed.
  Lemma rel_bound l c : Rel l c -> Z.of_nat (length c) <= 2 ^ 62 /\ size l = Z.of_nat (length c).
  Proof. intros (h & t & [[? ?] [? ?] ? ? ? ? ?]). unfold lenZ in *. split; [|assumption]. lia. Qed.

  Lemma walk_forward l c : Rel l c -> forall fuel i, (length c <= i + fuel)%nat -> (i <= length c)%nat ->
    walk fuel it_next {| al := l; cur := Z.of_nat i |} = Ok (skipn i c).
  Proof.
    intros HR. pose proof (rel_bound _ _ HR) as [Hb _]. induction fuel as [|fuel IH]; intros i Hi Hi2; cbn [walk].
    - rewrite (valid_iff l c i HR). replace (i <? length c)%nat with false by lia. rewrite skipn_all2 by lia. reflexivity.
    - rewrite (valid_iff l c i HR). destruct (Nat.ltb_spec i (length c)).
      + destruct (value_at l c i HR) as (v & Ev & E); [assumption|]. rewrite E. cbn [bind].
        unfold it_next; cbn [al cur]. rewrite u_small by lia. replace (Z.of_nat i + 1) with (Z.of_nat (S i)) by lia.
        rewrite IH by lia. cbn [bind]. now rewrite (skipn_nth _ _ _ Ev).
      + rewrite skipn_all2 by lia. reflexivity.
  Qed.
  Lemma walk_forward_ok l c fuel : Rel l c -> (length c <= fuel)%nat -> walk fuel it_next (it_head (iterator l)) = Ok c.
  Proof. intros HR Hf. apply (walk_forward l c HR fuel 0); lia. Qed.

  Lemma walk_backward l c : Rel l c -> forall fuel i, (i <= fuel)%nat -> (i <= length c)%nat ->
    walk fuel it_prev {| al := l; cur := u (Z.of_nat i - 1) |} = Ok (rev (firstn i c)).
  Proof.
    intros HR. pose proof (rel_bound _ _ HR) as [Hb Hs].
    assert (H0 : it_valid {| al := l; cur := u (Z.of_nat 0 - 1) |} = false).
    { unfold it_valid; cbn [al cur]. rewrite Hs. change (u (Z.of_nat 0 - 1)) with (2^64 - 1). lia. }
    induction fuel as [|fuel IH]; intros i Hi Hi2; cbn [walk].
    - replace i with 0%nat by lia. rewrite H0. reflexivity.
    - destruct i as [|i]; [rewrite H0; reflexivity|].
      replace (Z.of_nat (S i) - 1) with (Z.of_nat i) by lia. rewrite (u_small (Z.of_nat i)) by lia.
      rewrite (valid_iff l c i HR). replace (i <? length c)%nat with true by lia.
      destruct (value_at l c i HR) as (v & Ev & E); [lia|]. rewrite E. cbn [bind].
      unfold it_prev; cbn [al cur]. rewrite IH by lia. cbn [bind].
      rewrite (firstn_S_nth' _ _ _ Ev), rev_unit. reflexivity.
  Qed.
  Lemma walk_backward_ok l c fuel : Rel l c -> (length c <= fuel)%nat -> walk fuel it_prev (it_tail (iterator l)) = Ok (rev c).
  Proof.
    intros HR Hf. unfold it_tail, iterator; cbn [al cur]. rewrite (proj2 (rel_bound _ _ HR)).
    rewrite (walk_backward l c HR) by lia. now rewrite firstn_all.
  Qed.

  (* cyclic walks *)
  Lemma ci_next_eq l c i : Rel l c -> (i < length c)%nat ->
    ci_next {| al := l; cur := Z.of_nat i |} = {| al := l; cur := Z.of_nat (if (S i <? length c)%nat then S i else 0%nat) |}.
  Proof.
    intros HR Hi. pose proof (rel_bound _ _ HR) as [Hb Hs]. unfold ci_next; cbn [al cur]. rewrite Hs.
    destruct (Z.eqb_spec (Z.of_nat (length c)) 0); [lia|]. f_equal.
    rewrite (u_small (Z.of_nat (length c) - 1)) by lia.
    destruct (Z.leb_spec (Z.of_nat (length c) - 1) (Z.of_nat i)); destruct (Nat.ltb_spec (S i) (length c)); try lia.
    rewrite u_small; lia.
  Qed.
  Lemma ci_prev_eq l c i : Rel l c -> (i < length c)%nat ->
    ci_prev {| al := l; cur := Z.of_nat i |} = {| al := l; cur := Z.of_nat (if (i =? 0)%nat then (length c - 1)%nat else (i - 1)%nat) |}.
  Proof.
    intros HR Hi. pose proof (rel_bound _ _ HR) as [Hb Hs]. unfold ci_prev; cbn [al cur]. rewrite Hs.
    destruct (Z.eqb_spec (Z.of_nat (length c)) 0); [lia|]. f_equal.
    rewrite (u_small (Z.of_nat (length c) - 1)) by lia.
    destruct (Z.eqb_spec (Z.of_nat i) 0); destruct (Nat.eqb_spec i 0); try lia. rewrite u_small; lia.
  Qed.
  Lemma circ_next l c : Rel l c -> forall n i, (i < length c)%nat ->
    take_walk n ci_next {| al := l; cur := Z.of_nat i |} = Ok (map (fun k => nth ((i + k) mod length c) c zero) (seq 0 n)).
  Proof.
    intros HR. induction n as [|n IH]; intros i Hi; cbn [take_walk]; [reflexivity|].
    destruct (value_at l c i HR Hi) as (v & Ev & E). rewrite E. cbn [bind].
    rewrite (ci_next_eq l c i HR Hi), IH by (destruct (Nat.ltb_spec (S i) (length c)); lia).
    cbn [bind seq map]. rewrite Nat.add_0_r, (Nat.mod_small i) by assumption.
    f_equal. f_equal; [symmetry; apply nth_error_nth with (d := zero) in Ev; exact Ev|].
    rewrite <- seq_shift, map_map. apply map_ext. intros k. f_equal.
    destruct (Nat.ltb_spec (S i) (length c)).
    - f_equal; lia.
    - replace (i + S k)%nat with (k + 1 * length c)%nat by lia. now rewrite Nat.mod_add by lia.
  Qed.
  Lemma circ_prev l c : Rel l c -> forall n i, (i < length c)%nat ->
    take_walk n ci_prev {| al := l; cur := Z.of_nat i |} =
      Ok (map (fun k => nth ((length c - 1 - i + k) mod length c) (rev c) zero) (seq 0 n)).
  Proof.
    intros HR. induction n as [|n IH]; intros i Hi; cbn [take_walk]; [reflexivity|].
    destruct (value_at l c i HR Hi) as (v & Ev & E). rewrite E. cbn [bind].
    rewrite (ci_prev_eq l c i HR Hi), IH by (destruct (Nat.eqb_spec i 0); lia).
    cbn [bind seq map]. rewrite Nat.add_0_r, (Nat.mod_small (length c - 1 - i)) by lia.
    f_equal. f_equal.
    - rewrite rev_nth by lia. replace (length c - S (length c - 1 - i))%nat with i by lia.
      symmetry. apply nth_error_nth with (d := zero) in Ev; exact Ev.
    - rewrite <- seq_shift, map_map. apply map_ext. intros k. f_equal.
      destruct (Nat.eqb_spec i 0).
      + subst i. replace (length c - 1 - (length c - 1) + k)%nat with k by lia.
        replace (length c - 1 - 0 + S k)%nat with (k + 1 * length c)%nat by lia. now rewrite Nat.mod_add by lia.
      + f_equal; lia.
  Qed.

  (** ** Removal through iterators *)
  Lemma it_remove_next_ok l c i : Rel l c -> (i < length c)%nat -> exists it',
    it_remove_next zero limit {| al := l; cur := Z.of_nat i |} = Ok it' /\ Rel (al it') (delete_at i c) /\
    cur it' = (if (S i <? length c)%nat then Z.of_nat i else u (Z.of_nat i - 1)).
  Proof.
    intros HR Hi. unfold it_remove_next; cbn [al cur].
    destruct (remove_rel zero limit Hlim l c i HR Hi) as (l' & v & E & Ev & HR'). rewrite E. cbn [bind].
    eexists; split; [reflexivity|]. cbn [al cur]. split; [assumption|].
    rewrite (proj2 (rel_bound _ _ HR')), (delete_at_length limit Hlim) by assumption.
    destruct (Z.eqb_spec (Z.of_nat i) (Z.of_nat (length c - 1))); destruct (Nat.ltb_spec (S i) (length c)); try lia; reflexivity.
  Qed.
  Lemma it_remove_prev_ok l c i : Rel l c -> (i < length c)%nat -> exists it',
    it_remove_prev zero limit {| al := l; cur := Z.of_nat i |} = Ok it' /\ Rel (al it') (delete_at i c) /\
    cur it' = Z.of_nat (i - 1).
  Proof.
    intros HR Hi. unfold it_remove_prev; cbn [al cur].
    destruct (remove_rel zero limit Hlim l c i HR Hi) as (l' & v & E & Ev & HR'). rewrite E. cbn [bind].
    eexists; split; [reflexivity|]. cbn [al cur]. split; [assumption|]. pose proof (rel_bound _ _ HR).
    destruct (Z.eqb_spec (Z.of_nat i) 0); [lia|]. rewrite u_small; lia.
  Qed.
  Lemma ci_remove_next_ok l c i : Rel l c -> (i < length c)%nat -> exists it',
    ci_remove_next zero limit {| al := l; cur := Z.of_nat i |} = Ok it' /\ Rel (al it') (delete_at i c) /\ cur it' = Z.of_nat i.
  Proof.
    intros HR Hi. unfold ci_remove_next; cbn [al cur].
    destruct (remove_rel zero limit Hlim l c i HR Hi) as (l' & v & E & Ev & HR'). rewrite E. cbn [bind].
    eexists; split; [reflexivity|]. cbn [al cur]. auto.
  Qed.
  Lemma ci_remove_prev_ok l c i : Rel l c -> (i < length c)%nat -> exists it',
    ci_remove_prev zero limit {| al := l; cur := Z.of_nat i |} = Ok it' /\ Rel (al it') (delete_at i c) /\ cur it' = u (Z.of_nat i - 1).
  Proof.
    intros HR Hi. unfold ci_remove_prev; cbn [al cur].
    destruct (remove_rel zero limit Hlim l c i HR Hi) as (l' & v & E & Ev & HR'). rewrite E. cbn [bind].
    eexists; split; [reflexivity|]. cbn [al cur]. auto.
  Qed.

  (** ** SetValue and Swap *)
  Lemma it_set_ok l c i v : Rel l c -> (i < length c)%nat -> exists l',
    it_set {| al := l; cur := Z.of_nat i |} v = Ok l' /\ Rel l' (update_at i v c).
  Proof.
    intros HR Hi. pose proof (rel_bound _ _ HR). pose proof (set_rel limit Hlim l c i v HR Hi) as (l' & E & HR').
    unfold set_idx in E. rewrite (u_small (Z.of_nat i)) in E by lia. unfold it_set; cbn [al cur]. eauto.
  Qed.
  Lemma it_swap_ok l c i j x y : Rel l c -> nth_error c i = Some x -> nth_error c j = Some y -> exists l',
    it_swap {| al := l; cur := Z.of_nat i |} {| al := l; cur := Z.of_nat j |} = Ok l' /\ Rel l' (update_at j x (update_at i y c)).
  Proof.
    intros (h & t & HR) Hx Hy.
    assert (Hi : (i < length c)%nat) by (apply nth_error_Some; congruence).
    assert (Hj : (j < length c)%nat) by (apply nth_error_Some; congruence).
    pose proof HR as [[R1 R1'] [R2 R2'] R3 R4 R5 R6 R7]. unfold it_swap; cbn [al cur].
    replace (Z.of_nat i + headidx l + 1) with (headidx l + 1 + Z.of_nat i) by lia.
    replace (Z.of_nat j + headidx l + 1) with (headidx l + 1 + Z.of_nat j) by lia.
    rewrite !(head_plus limit Hlim _ _ _ _ _ HR) by lia. rewrite !get_ok, !R7, Hx, Hy by lia.
    unfold obind; cbn [of_opt bind]. rewrite set_ok by lia. cbn [of_opt bind].
    rewrite set_ok by (rewrite list_set_length; lia). cbn [of_opt bind].
    eexists; split; [reflexivity|]. exists h, t.
    pose proof (set_data_rel limit l c h t i y HR Hi) as HR1.
    pose proof (set_data_rel limit _ _ h t j x HR1) as HR2. cbn [data headidx tailidx size shrinkSize] in HR2.
    apply HR2. rewrite update_at_list_set, list_set_length. assumption.
  Qed.

  (** ** Contains *)
  Lemma contains_ok comp (lt : A -> A -> Prop) eqb l c vs : Rel l c -> decides_ex lt comp -> (forall a b, eqb a b = true <-> a = b) ->
    contains comp l vs = Ok (count_equal eqb c vs).
  Proof.
    intros (h & t & HR) Hd He. unfold contains, obind. rewrite (content limit Hlim _ _ _ _ HR). cbn [of_opt bind]. f_equal.
    assert (Hin : forall x ws n, fold_left (fun count sv => if comp x sv =? -1 then S count else count) ws n = (n + length (filter (eqb x) ws))%nat).
    { intros x ws. induction ws as [|w ws IHw]; intros n; simpl; [lia|]. rewrite IHw.
      destruct (Z.eqb_spec (comp x w) (-1)) as [E|E]; destruct (eqb x w) eqn:Eb; simpl; try lia; exfalso.
      - apply (proj1 (Hd x w)) in E. apply He in E. congruence.
      - apply He in Eb. apply (proj1 (Hd x w)) in Eb. congruence. }
    unfold count_equal.
    assert (Hgen : forall c n, fold_left (fun count el => fold_left (fun count0 sv => if comp el sv =? -1 then S count0 else count0) vs count) c n
       = (n + list_sum (map (fun x => length (filter (eqb x) vs)) c))%nat).
    { clear HR c. induction c as [|x c IHc]; intros n; cbn [fold_left map]; [simpl; lia|]. rewrite IHc, Hin. simpl. lia. }
    apply Hgen.
  Qed.
End P.
