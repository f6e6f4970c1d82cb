From Verif Require Import Base Bind Machine DLL DLLSeg LinkedListSpec LinkedListModel LinkedListProofs LinkedListIter LinkedListStaleSpec.

(** ** what a call writes to: cells reachable from the ones it is given, and new ones *)
Section Frame.
  Context {A : Type}.
  Implicit Types (h : heap A).
  Context (D : nat -> Prop) (h0 : heap A).
  Definition inD (p : ptr) : Prop := match p with None => True | Some a => D a end.
  Definition closed h : Prop := forall a nd, D a -> nth_error h a = Some nd -> inD (nprev nd) /\ inD (nnext nd).
  Definition kept h : Prop := forall a nd, nth_error h0 a = Some nd -> exists nd', nth_error h a = Some nd' /\ nval nd' = nval nd.
  Definition same h : Prop := forall a, ~ D a -> a < length h0 -> nth_error h a = nth_error h0 a.
  Definition Inv h : Prop := closed h /\ same h /\ kept h /\ length h0 <= length h.
  Context (Hfresh : forall a, length h0 <= a -> D a).

  Lemma nth_list_set h a b (x : node A) : a < length h ->
    nth_error (list_set h a x) b = if b =? a then Some x else nth_error h b.
  Proof.
    intros H. destruct (Nat.eqb_spec b a) as [->|Hne]; [now apply nth_error_list_set_eq|].
    apply nth_error_list_set_neq. congruence.
  Qed.
  Lemma store_inv h p h' nd x : Inv h -> inD p -> deref h p = Some nd -> store h p x = Some h' ->
    inD (nprev x) -> inD (nnext x) -> nval x = nval nd -> Inv h'.
  Proof.
    intros (Hc & Hs & Hk & Hl) Hp Ed Es H1 H2 H3. destruct p as [a|]; [|discriminate]. cbn [deref store] in *.
    assert (Ha : a < length h) by (apply nth_error_Some; congruence).
    apply Nat.ltb_lt in Ha as Ha'. rewrite Ha' in Es. injection Es as <-.
    split; [|split; [|split]].
    - intros b nb Hb Eb. rewrite nth_list_set in Eb by assumption. destruct (b =? a); [|eapply Hc; eassumption].
      injection Eb as <-. auto.
    - intros b Hb Hlt. rewrite nth_list_set by assumption. destruct (Nat.eqb_spec b a) as [->|]; [contradiction|]. auto.
    - intros b nb Eb. rewrite nth_list_set by assumption. destruct (Nat.eqb_spec b a) as [->|]; [|auto].
      destruct (Hk _ _ Eb) as (nd' & E1 & E2). eexists; split; [reflexivity|]. congruence.
    - now rewrite list_set_length.
  Qed.
  Lemma deref_closed h p nd : Inv h -> inD p -> deref h p = Some nd -> inD (nprev nd) /\ inD (nnext nd).
  Proof. intros (Hc & _) Hp E. destruct p as [a|]; [|discriminate]. eapply Hc; eassumption. Qed.
  Lemma set_prev_inv h p q h' : set_prev h p q = Some h' -> Inv h -> inD p -> inD q -> Inv h'.
  Proof.
    unfold set_prev. destruct (deref h p) as [nd|] eqn:E; [|discriminate]. intros Es HI Hp Hq.
    destruct (deref_closed _ _ _ HI Hp E) as [H1 H2].
    eapply store_inv; [exact HI|exact Hp|exact E|exact Es|..]; cbn [nprev nnext nval]; auto.
  Qed.
  Lemma set_next_inv h p q h' : set_next h p q = Some h' -> Inv h -> inD p -> inD q -> Inv h'.
  Proof.
    unfold set_next. destruct (deref h p) as [nd|] eqn:E; [|discriminate]. intros Es HI Hp Hq.
    destruct (deref_closed _ _ _ HI Hp E) as [H1 H2].
    eapply store_inv; [exact HI|exact Hp|exact E|exact Es|..]; cbn [nprev nnext nval]; auto.
  Qed.
  Lemma get_prev_inv h p q : get_prev h p = Some q -> Inv h -> inD p -> inD q.
  Proof.
    unfold get_prev. destruct (deref h p) as [nd|] eqn:E; [|discriminate]. intros [= <-] HI Hp.
    apply (deref_closed _ _ _ HI Hp E).
  Qed.
  Lemma get_next_inv h p q : get_next h p = Some q -> Inv h -> inD p -> inD q.
  Proof.
    unfold get_next. destruct (deref h p) as [nd|] eqn:E; [|discriminate]. intros [= <-] HI Hp.
    apply (deref_closed _ _ _ HI Hp E).
  Qed.
  Lemma alloc_inv h v : Inv h -> Inv (h ++ [mk None None v]) /\ inD (Some (length h)).
  Proof.
    intros (Hc & Hs & Hk & Hl). split; [|cbn; now apply Hfresh]. split; [|split; [|split]].
    - intros a nd Ha E. destruct (Nat.lt_ge_cases a (length h)) as [Hlt|Hge].
      + rewrite nth_error_app1 in E by assumption. eauto.
      + rewrite nth_error_app2 in E by assumption. destruct (a - length h) as [|[|k]]; cbn in E; try discriminate.
        injection E as <-. cbn. auto.
    - intros a Ha Hlt. rewrite nth_error_app1 by lia. auto.
    - intros a nd E. destruct (Hk _ _ E) as (nd' & E1 & E2). exists nd'. split; [|assumption].
      rewrite nth_error_app1; [assumption|]. apply nth_error_Some. congruence.
    - rewrite app_length. lia.
  Qed.

  Ltac one :=
    match goal with
    | H : None = Some _ |- _ => discriminate H
    | H : Some _ = Some _ |- _ => injection H; clear H; intros; subst
    | H : match ?x with Some _ => _ | None => _ end = Some _ |- _ => destruct x eqn:?; [|discriminate H]
    | H : (let '(_, _) := ?x in _) = Some _ |- _ => destruct x eqn:?
    | H : match ?x with (_, _) => _ end = Some _ |- _ => destruct x eqn:?
    | H : (if ?b then _ else _) = Some _ |- _ => destruct b eqn:?
    end.
  Ltac inv1 :=
    match goal with
    | H : set_prev ?h ?p ?q = Some ?h' |- _ => lazymatch goal with _ : Inv h' |- _ => fail | _ => idtac end;
        assert (Inv h') by (apply (set_prev_inv _ _ _ _ H); auto); clear H
    | H : set_next ?h ?p ?q = Some ?h' |- _ => lazymatch goal with _ : Inv h' |- _ => fail | _ => idtac end;
        assert (Inv h') by (apply (set_next_inv _ _ _ _ H); auto); clear H
    | H : get_prev ?h ?p = Some ?q |- _ => assert (inD q) by (apply (get_prev_inv _ _ _ H); auto); clear H
    | H : get_next ?h ?p = Some ?q |- _ => assert (inD q) by (apply (get_next_inv _ _ _ H); auto); clear H
    end.
  Ltac go := repeat one; repeat inv1; auto.

  Lemma link_back_inv (l : llist (A:=A)) v h h' : link_back l v h = Some h' -> Inv h -> inD (head l) -> inD (tail l) -> Inv h'.
  Proof.
    intros H HI Hh Ht. unfold link_back in H. cbn [alloc] in H. destruct (alloc_inv h v HI). go.
  Qed.
  Lemma link_front_inv (l : llist (A:=A)) v h h' : link_front l v h = Some h' -> Inv h -> inD (head l) -> inD (tail l) -> Inv h'.
  Proof.
    intros H HI Hh Ht. unfold link_front in H. cbn [alloc] in H. destruct (alloc_inv h v HI). go.
  Qed.
  Lemma each_inv (f : A -> heap A -> option (heap A)) vs : (forall v h h', f v h = Some h' -> Inv h -> Inv h') ->
    forall h h', each f vs h = Some h' -> Inv h -> Inv h'.
  Proof.
    intros Hf. induction vs as [|v vs IH]; intros h h' H HI; cbn [each] in H; repeat one; eauto.
  Qed.
  Lemma build_inv vs : forall h e h' e', build vs h e = Some (h', e') -> Inv h -> inD e -> Inv h' /\ inD e'.
  Proof.
    induction vs as [|v vs IH]; intros h e h' e' H HI He; cbn [build] in H; [injection H as <- <-; auto|].
    cbn [alloc] in H. destruct (alloc_inv h v HI). repeat one. repeat inv1. eauto.
  Qed.
  Lemma remove_inv h c h' : remove h c = Some h' -> Inv h -> inD c -> Inv h'.
  Proof. intros H HI Hc. unfold remove in H. assert (inD None) by exact I. go. Qed.

  Lemma step_inv (l l' : llist (A:=A)) o r : step l o = Some (l', r) -> Inv (hp l) -> inD (head l) -> inD (tail l) -> Inv (hp l').
  Proof.
    intros H HI Hh Ht. destruct o; cbn [step] in H; repeat one; auto.
    - unfold push in *. repeat one. cbn [hp]. eapply link_back_inv; eassumption.
    - unfold pushFront in *. repeat one. cbn [hp]. eapply (each_inv (link_front l)); [|eassumption|assumption].
      intros ? ? ? ? ?. eapply link_front_inv; eassumption.
    - unfold pushBack in *. repeat one. cbn [hp]. eapply (each_inv (link_back l)); [|eassumption|assumption].
      intros ? ? ? ? ?. eapply link_back_inv; eassumption.
    - unfold popFront in *. go.
    - unfold popBack in *. go.
    - unfold clear in *. go.
  Qed.
  Definition writes (o : c_op A) : bool := match o with OnIter _ _ (ISetValue _ | ISwap _) => true | _ => false end.
  Lemma sys_step_inv (s s' : sys (A:=A)) o r : writes o = false -> sys_step s o = Some (s', r) -> Inv (hp (lst s)) ->
    inD (head (lst s)) -> inD (tail (lst s)) ->
    (forall i circ a, o = OnIter i circ a -> match a with
       | IMoveBefore j | IMoveAfter j => inD (its s i) /\ inD (its s j)
       | IInsertBefore _ | IInsertAfter _ | IRemoveToNext | IRemoveToPrev => inD (its s i)
       | _ => True end) -> Inv (hp (lst s')).
  Proof.
    intros Hw H HI Hh Ht Hi. destruct o as [o|i circ a]; cbn [sys_step] in H.
    - repeat one. cbn [lst]. eapply step_inv; eassumption.
    - specialize (Hi i circ a eq_refl). unfold iter_act in H.
      destruct a; try discriminate Hw; repeat one; cbn [lst set_it]; auto.
      + destruct Hi. unfold moveBefore in *. go.
      + destruct Hi. unfold moveAfter in *. go.
      + unfold insertBefore in *. destruct vs as [|v vs]; [discriminate|]. cbn [alloc] in *.
        destruct (alloc_inv _ v HI). repeat one. destruct (build_inv _ _ _ _ _ ltac:(eassumption) ltac:(assumption) ltac:(assumption)). go.
      + unfold insertAfter in *. destruct vs as [|v vs]; [discriminate|]. cbn [alloc] in *.
        destruct (alloc_inv _ v HI). repeat one. destruct (build_inv _ _ _ _ _ ltac:(eassumption) ltac:(assumption) ltac:(assumption)). go.
      + unfold removeToNext in *. repeat one; cbn [hp]; eapply remove_inv; eassumption.
      + unfold removeToPrev in *. repeat one; cbn [hp]; eapply remove_inv; eassumption.
  Qed.
End Frame.

Section Stale.
  Context {A : Type}.
  Notation cell := (nat * A)%type.
  Implicit Types (h : heap A) (L : list cell) (t : cstate A) (s : sys (A:=A)) (d : dstate A).

  Definition DRel s d : Prop :=
    Rel s (base d) /\ NoDup (map fst (dead d)) /\ incl (cut d) (map fst (dead d)) /\
    (forall c v, In (c, v) (dead d) -> ~ In c (names (base d)) /\
       exists nd, nth_error (hp (lst s)) c = Some nd /\ nval nd = v /\
         (In c (cut d) -> nprev nd = None /\ nnext nd = None)).

  Lemma live_in t c : live t c = true <-> In c (map fst (cells t)).
  Proof.
    unfold live. rewrite existsb_exists. split.
    - intros (x & Hin & E). apply Nat.eqb_eq in E. now subst x.
    - intros H. exists c. split; [assumption|apply Nat.eqb_refl].
  Qed.
  Lemma names_in t c : In c (names t) <-> c = 0 \/ In c (map fst (cells t)) \/ c = 1.
  Proof. unfold names. cbn [In]. rewrite in_app_iff. cbn [In]. intuition congruence. Qed.
  Lemma value_of_in L c v : value_of L c = Some v -> In (c, v) L.
  Proof. intros H. apply value_split in H as (L1 & L2 & ->). apply in_or_app. right. now left. Qed.
  Lemma value_of_none L c : value_of L c = None <-> ~ In c (map fst L).
  Proof.
    unfold value_of. split.
    - intros H Hin. apply in_map_iff in Hin as ([a v] & <- & Hin). destruct (find _ L) as [[b w]|] eqn:E; [discriminate|].
      apply (find_none _ _ E) in Hin. cbn [fst] in Hin. now rewrite Nat.eqb_refl in Hin.
    - intros H. destruct (find _ L) as [[b w]|] eqn:E; [|reflexivity]. apply find_some in E as [Hin E]. cbn [fst] in E.
      apply Nat.eqb_eq in E. subst b. exfalso. apply H. now apply (in_map fst) in Hin.
  Qed.

  (** the cells of the list only point to one another *)
  Lemma hd_ptr_in L n b : hd_ptr L n = Some b -> In b (map fst L) \/ n = Some b.
  Proof. destruct L as [|[a v] L]; cbn; [auto|]. intros [= ->]. auto. Qed.
  Lemma last_ptr_in L : forall p b, last_ptr p L = Some b -> In b (map fst L) \/ p = Some b.
  Proof.
    induction L as [|[a v] L IH]; intros p b; cbn [last_ptr map fst In]; [auto|]. intros H.
    destruct (IH _ _ H) as [H'|[= ->]]; auto.
  Qed.
  Lemma rel_closed s t : Rel s t ->
    closed (fun a => In a (names t) \/ length (hp (lst s)) <= a) (hp (lst s)).
  Proof.
    intros [(_ & _ & _ & _ & vh & vt & _ & Hc) _] a nd [Ha|Ha] E.
    2:{ apply nth_error_None in Ha. congruence. }
    rewrite (names_full t vh vt) in *. apply in_map_iff in Ha as ([a' v] & Ea & Ha). cbn [fst] in Ea. subst a'.
    apply in_split in Ha as (L1 & L2 & EL). rewrite EL in Hc |- *. apply chain_node in Hc.
    rewrite Hc in E. injection E as <-. cbn [nprev nnext]. rewrite map_app. cbn [map fst]. split.
    - destruct (last_ptr None L1) as [b|] eqn:Eb; [|exact I]. apply last_ptr_in in Eb as [Eb|Eb]; [|discriminate].
      left. apply in_or_app. now left.
    - destruct (hd_ptr L2 None) as [b|] eqn:Eb; [|exact I]. apply hd_ptr_in in Eb as [Eb|Eb]; [|discriminate].
      left. apply in_or_app. right. now right.
  Qed.
  Lemma rel_lt s t a : Rel s t -> In a (names t) -> a < length (hp (lst s)).
  Proof.
    intros [(_ & _ & _ & _ & vh & vt & _ & Hc) _] Ha. rewrite (names_full t vh vt) in Ha.
    apply chain_lt in Hc. rewrite Forall_forall in Hc. apply in_map_iff in Ha as (x & <- & Ha). now apply Hc.
  Qed.
  (** a call that is defined on the cells of the list leaves every other cell alone *)
  Lemma step_frame s t t' o r s' : Rel s t -> c_spec t o = Some (t', r) -> sys_step s o = Some (s', r) -> writes o = false ->
    (forall a, ~ In a (names t) -> a < length (hp (lst s)) -> nth_error (hp (lst s')) a = nth_error (hp (lst s)) a) /\
    kept (hp (lst s)) (hp (lst s')).
  Proof.
    intros HR Hs Hm Hw. pose proof HR as [(Eh & Et & _) Hi].
    set (D := fun a => In a (names t) \/ length (hp (lst s)) <= a).
    assert (H : Inv D (hp (lst s)) (hp (lst s'))).
    { eapply sys_step_inv; [|exact Hw|exact Hm| | | |].
      - intros a Ha. right. exact Ha.
      - split; [apply rel_closed, HR|]. split; [intros a _ _; reflexivity|]. split; [|lia].
        intros a nd E. exists nd. auto.
      - rewrite Eh. left. apply names_in. auto.
      - rewrite Et. left. apply names_in. auto.
      - intros i circ a ->. cbn [c_spec] in Hs.
        assert (HL : forall c, live t c = true -> D c).
        { intros c H. left. apply names_in. right. left. now apply live_in. }
        assert (HV : forall c v, value_of (cells t) c = Some v -> D c).
        { intros c v H. left. apply names_in. right. left. apply value_of_in in H. now apply (in_map fst) in H. }
        assert (HE : forall c b, (live t c || (c =? b)) = true -> b = 0 \/ b = 1 -> D c).
        { intros c b H Hb. apply orb_prop in H as [H|H]; [auto|]. apply Nat.eqb_eq in H. subst b. left. apply names_in. tauto. }
        destruct a; try exact I; cbn [iter_step] in Hs.
        + rewrite !Hi. cbn [inD]. destruct (value_of (cells t) (cur t i)) eqn:Ev; [|discriminate].
          unfold when in Hs. destruct (_ || _) eqn:El; [|discriminate]. eauto.
        + rewrite !Hi. cbn [inD]. destruct (value_of (cells t) (cur t i)) eqn:Ev; [|discriminate].
          unfold when in Hs. destruct (_ || _) eqn:El; [|discriminate]. eauto.
        + rewrite !Hi. cbn [inD]. unfold when in Hs. destruct (_ && _) eqn:El; [|discriminate].
          apply andb_prop in El as [El _]. eauto.
        + rewrite !Hi. cbn [inD]. unfold when in Hs. destruct (_ && _) eqn:El; [|discriminate].
          apply andb_prop in El as [El _]. eauto.
        + rewrite !Hi. cbn [inD]. unfold when in Hs. destruct (live t (cur t i)) eqn:El; [|discriminate]. eauto.
        + rewrite !Hi. cbn [inD]. unfold when in Hs. destruct (live t (cur t i)) eqn:El; [|discriminate]. eauto. }
    destruct H as (_ & H1 & H2 & _). split; [|assumption].
    intros a Ha Hlt. apply H1; [|assumption]. intros [H|H]; [contradiction|lia].
  Qed.

  (** names only come from the counter *)
  Lemma named_ge t vs c : In c (map fst (named t vs)) -> fresh t <= c.
  Proof.
    unfold named. intros H. apply in_map_iff in H as ([a v] & <- & H). apply in_combine_l in H. apply in_seq in H. cbn. lia.
  Qed.
  Lemma ins_before_in new m c : forall L, In c (map fst (ins_before new m L)) -> In c (map fst new) \/ In c (map fst L).
  Proof.
    induction L as [|[a v] L IH]; cbn [ins_before fst].
    - auto.
    - destruct (a =? m); [rewrite map_app, in_app_iff; tauto|]. cbn [map fst In]. intuition.
  Qed.
  Lemma ins_after_in new m c : forall L, In c (map fst (ins_after' new m L)) -> In c (map fst new) \/ In c (map fst L).
  Proof.
    intros L. unfold ins_after'. destruct (m =? 0); [rewrite map_app, in_app_iff; tauto|].
    induction L as [|[a v] L IH]; cbn [ins_after fst].
    - auto.
    - destruct (a =? m); cbn [map fst In]; rewrite ?map_app, ?in_app_iff; intuition.
  Qed.
  Lemma drop_in L m c : In c (map fst (drop L m)) -> In c (map fst L).
  Proof. unfold drop. intros H. apply in_map_iff in H as (x & <- & H). apply filter_In in H as [H _]. now apply in_map. Qed.
  Lemma removelast_in (L : list cell) c : In c (map fst (removelast L)) -> In c (map fst L).
  Proof.
    induction L as [|x [|y L] IH]; intros H; [assumption|cbn in H; tauto|].
    cbn [removelast map In] in H |- *. destruct H as [H|H]; [auto|right; apply IH, H].
  Qed.
  Lemma names_grow t o t' r c : c_spec t o = Some (t', r) -> In c (map fst (cells t')) ->
    In c (map fst (cells t)) \/ fresh t <= c.
  Proof.
    destruct o as [o|i circ a]; cbn [c_spec].
    - intros [= H] Hin. replace t' with (fst (list_step t o)) in Hin by now rewrite H. clear H.
      destruct o; cbn [list_step fst cells add_cells put_cells] in Hin; auto;
        rewrite ?map_app, ?map_rev, ?in_app_iff, <- ?in_rev in Hin.
      + destruct Hin as [Hin|Hin]; [auto|right; eapply named_ge; exact Hin].
      + destruct Hin as [Hin|Hin]; [right; eapply named_ge; exact Hin|auto].
      + destruct Hin as [Hin|Hin]; [auto|right; eapply named_ge; exact Hin].
      + destruct (cells t) as [|x L]; cbn [tl map In] in *; auto.
      + left. now apply removelast_in.
      + destruct Hin.
    - unfold iter_step, moved, when. intros H Hin.
      destruct a; repeat match type of H with
        | (if ?b then _ else _) = Some _ => destruct b eqn:?; try discriminate H
        | match ?x with _ => _ end = Some _ => destruct x eqn:?; try discriminate H
        end; injection H as <- <-; cbn [cells at_ put_cells add_cells] in Hin; rewrite ?write_names in Hin; auto.
      + match type of Hin with context [if ?b then _ else _] => destruct b; [auto|] end.
        apply ins_before_in in Hin as [Hin|Hin].
        * cbn in Hin. destruct Hin as [<-|[]]. left. apply (in_map fst _ _ (value_of_in _ _ _ Heqo)).
        * left. now apply drop_in in Hin.
      + match type of Hin with context [if ?b then _ else _] => destruct b; [auto|] end.
        apply ins_after_in in Hin as [Hin|Hin].
        * cbn in Hin. destruct Hin as [<-|[]]. left. apply (in_map fst _ _ (value_of_in _ _ _ Heqo)).
        * left. now apply drop_in in Hin.
      + apply ins_before_in in Hin as [Hin|Hin]; [right; eapply named_ge; exact Hin|auto].
      + apply ins_after_in in Hin as [Hin|Hin]; [right; eapply named_ge; exact Hin|auto].
      + left. now apply drop_in in Hin.
      + left. now apply drop_in in Hin.
  Qed.

  Lemma set_val_inv h c v h' : set_val h (Some c) v = Some h' ->
    exists nd, nth_error h c = Some nd /\ nth_error h' c = Some (mk (nprev nd) (nnext nd) v) /\
      (forall b, b <> c -> nth_error h' b = nth_error h b) /\ length h' = length h.
  Proof.
    unfold set_val, store. cbn [deref]. destruct (nth_error h c) as [nd|] eqn:E; [|discriminate].
    assert (Hc : c < length h) by (apply nth_error_Some; congruence). apply Nat.ltb_lt in Hc as Hc'. rewrite Hc'.
    intros [= <-]. exists nd. split; [reflexivity|]. split; [now apply nth_error_list_set_eq|].
    split; [intros b Hb; apply nth_error_list_set_neq; congruence|apply list_set_length].
  Qed.
  Lemma set_val_some h c v nd : nth_error h c = Some nd -> exists h', set_val h (Some c) v = Some h'.
  Proof. intros H. eexists. apply (set_val_ok _ _ _ _ H). Qed.
  (** the last two assignments of remove *)
  Lemma remove_cut h c h' : remove h (Some c) = Some h' -> exists nd, nth_error h' c = Some nd /\ nprev nd = None /\ nnext nd = None.
  Proof.
    unfold remove. destruct (get_prev h (Some c)); [|discriminate]. destruct (get_next h (Some c)); [|discriminate].
    destruct (set_next h _ _) as [h1|]; [|discriminate]. destruct (set_prev h1 _ _) as [h2|]; [|discriminate].
    unfold set_prev, store. cbn [deref]. destruct (nth_error h2 c) as [nd|] eqn:E; [|discriminate].
    assert (Hc : c < length h2) by (apply nth_error_Some; congruence). apply Nat.ltb_lt in Hc as Hc'. rewrite Hc'.
    unfold set_next, store. cbn [deref]. rewrite nth_error_list_set_eq by assumption.
    rewrite list_set_length, Hc'. intros [= <-]. rewrite nth_error_list_set_eq by (now rewrite list_set_length).
    eexists; split; [reflexivity|]. auto.
  Qed.
  Lemma gone_in t t' c v : In (c, v) (gone t t') <-> In (c, v) (cells t) /\ ~ In c (map fst (cells t')).
  Proof.
    unfold gone. rewrite filter_In. cbn [fst]. rewrite <- live_in. destruct (live t' c); cbn [negb]; intuition congruence.
  Qed.
  Lemma gone_same t t' : map fst (cells t') = map fst (cells t) -> gone t t' = [].
  Proof.
    intros H. destruct (gone t t') as [|[c v] g] eqn:E; [reflexivity|]. exfalso.
    assert (Hin : In (c, v) (gone t t')) by (rewrite E; now left). apply gone_in in Hin as [H1 H2]. apply H2.
    rewrite H. now apply (in_map fst) in H1.
  Qed.
  Lemma nodup_filter_fst (f : cell -> bool) L : NoDup (map fst L) -> NoDup (map fst (filter f L)).
  Proof.
    induction L as [|x L IH]; intros H; [exact H|]. cbn [map] in H. apply NoDup_cons_iff in H as [H1 H2].
    cbn [filter]. destruct (f x); [|auto]. cbn [map]. constructor; [|auto]. intros Hin. apply H1.
    apply in_map_iff in Hin as (y & <- & Hin). apply filter_In in Hin as [Hin _]. now apply in_map.
  Qed.
  Lemma write_in L c w a v : NoDup (map fst L) -> In (a, v) (write L c w) -> (a = c /\ v = w) \/ (a <> c /\ In (a, v) L).
  Proof.
    intros _ H. unfold write in H. apply in_map_iff in H as ([b u] & E & Hin). cbn [fst] in E.
    destruct (Nat.eqb_spec b c) as [->|Hne]; injection E as <- <-; auto.
  Qed.
  Lemma cell_node s t c v : Rel s t -> In (c, v) (cells t) -> exists nd, nth_error (hp (lst s)) c = Some nd /\ nval nd = v.
  Proof.
    intros [HR _] H. apply in_split in H as (L1 & L2 & E). rewrite E in HR. exact (node_at _ _ _ _ _ _ HR).
  Qed.

  (** the cells that are out, after a call that is defined on the list *)
  Lemma dead_step s d o t' r s' : DRel s d -> c_spec (base d) o = Some (t', r) -> sys_step s o = Some (s', r) -> Rel s' t' ->
    DRel s' (DS t' (gone (base d) t' ++ dead d) (if cutter o then map fst (gone (base d) t') ++ cut d else cut d)).
  Proof.
    intros (HR & Hn & Hcut & Hd) Hs Hm HR'. pose proof HR as [HRL Hi].
    destruct (RelL_nodup _ _ _ HRL) as (HnL & H0 & H1).
    assert (Hfr : fresh (base d) = length (hp (lst s))) by (symmetry; apply HRL).
    assert (Hgd : forall c v w, In (c, v) (gone (base d) t') -> In (c, w) (dead d) -> False).
    { intros c v w Hg Hde. apply gone_in in Hg as [Hg _]. apply Hd in Hde as [Hde _]. apply Hde, names_in.
      right. left. now apply (in_map fst) in Hg. }
    assert (Hout : forall c v, In (c, v) (dead d) -> ~ In c (names t')).
    { intros c v Hin Hc. destruct (Hd _ _ Hin) as (Hnin & nd & Enth & _). apply Hnin.
      apply names_in. apply names_in in Hc as [->|[Hc| ->]]; auto.
      destruct (names_grow _ _ _ _ _ Hs Hc) as [Hc'|Hge]; [auto|].
      assert (c < length (hp (lst s))) by (apply nth_error_Some; congruence). lia. }
    assert (Hdn : forall c v, In (c, v) (dead d) -> nth_error (hp (lst s')) c = nth_error (hp (lst s)) c).
    { intros c v Hin. destruct (Hd _ _ Hin) as (Hnin & nd & Enth & _).
      assert (Hlt : c < length (hp (lst s))) by (apply nth_error_Some; congruence).
      destruct (writes o) eqn:Hw; [|apply (proj1 (step_frame _ _ _ _ _ _ HR Hs Hm Hw)); assumption].
      destruct o as [o|i circ a]; [discriminate|]. cbn [sys_step c_spec] in *. unfold iter_act in Hm.
      destruct a; try discriminate Hw; cbn [iter_step] in Hs.
      - unfold when in Hs. destruct (live (base d) (cur (base d) i)) eqn:El; [|discriminate]. rewrite Hi in Hm.
        unfold setValue in Hm. destruct (set_val _ _ _) as [h1|] eqn:Ev; [|discriminate]. injection Hm as <- <-.
        apply set_val_inv in Ev as (_ & _ & _ & Ev & _). cbn [lst hp with_heap]. apply Ev. intros ->.
        apply Hnin, names_in. right. left. now apply live_in.
      - destruct (value_of (cells (base d)) (cur (base d) i)) as [v1|] eqn:Ev1; [|discriminate].
        destruct (value_of (cells (base d)) (cur (base d) j)) as [v2|] eqn:Ev2; [|discriminate].
        apply value_of_in in Ev1, Ev2. apply (in_map fst) in Ev1, Ev2. cbn [fst] in Ev1, Ev2.
        rewrite !Hi in Hm. unfold swap in Hm. destruct (deref _ _) as [n1|]; [|discriminate].
        destruct (deref _ _) as [n2|]; [|discriminate].
        destruct (set_val _ _ _) as [h1|] eqn:Es1; [|discriminate]. destruct (set_val h1 _ _) as [h2|] eqn:Es2; [|discriminate].
        injection Hm as <- <-. apply set_val_inv in Es1 as (_ & _ & _ & Es1 & _). apply set_val_inv in Es2 as (_ & _ & _ & Es2 & _).
        cbn [lst hp with_heap]. rewrite Es2, Es1; [reflexivity| |]; intros ->; apply Hnin, names_in; auto. }
    assert (Hgn : forall c v, In (c, v) (gone (base d) t') ->
      exists nd, nth_error (hp (lst s')) c = Some nd /\ nval nd = v /\ (cutter o = true -> nprev nd = None /\ nnext nd = None)).
    { intros c v Hg. pose proof Hg as Hg'. apply gone_in in Hg' as [Hin Hnl].
      destruct (writes o) eqn:Hw.
      - exfalso. destruct o as [o|i circ a]; [discriminate|]. cbn [c_spec] in Hs.
        assert (E : map fst (cells t') = map fst (cells (base d))).
        { destruct a; try discriminate Hw; cbn [iter_step] in Hs.
          - unfold when in Hs. destruct (live _ _); [|discriminate]. injection Hs as <- <-. apply write_names.
          - destruct (value_of _ _); [|discriminate]. destruct (value_of _ _); [|discriminate]. injection Hs as <- <-.
            cbn [cells put_cells]. now rewrite !write_names. }
        rewrite (gone_same _ _ E) in Hg. destruct Hg.
      - destruct (cell_node _ _ _ _ HR Hin) as (nd & Ea & Eb).
        destruct (proj2 (step_frame _ _ _ _ _ _ HR Hs Hm Hw) _ _ Ea) as (nd' & Ea' & Eb').
        exists nd'. split; [assumption|]. split; [congruence|]. intros Hct.
        destruct o as [o|i circ a]; [discriminate|]. cbn [c_spec sys_step] in *. unfold iter_act in Hm.
        assert (Hc : c = cur (base d) i /\ exists h, remove (hp (lst s)) (its s i) = Some h /\ hp (lst s') = h).
        { destruct a; try discriminate Hct; cbn [iter_step] in Hs; unfold when, moved in Hs;
            (destruct (live _ _) eqn:El; [|discriminate]); split.
          - destruct (succ _ _); [|discriminate]. injection Hs as <- <-. cbn [cells at_ put_cells] in Hnl.
            destruct (Nat.eq_dec c (cur (base d) i)) as [|Hne]; [assumption|]. exfalso. apply Hnl.
            apply in_map_iff. exists (c, v). split; [reflexivity|]. unfold drop. apply filter_In. split; [assumption|].
            cbn [fst]. now apply negb_true_iff, Nat.eqb_neq.
          - unfold removeToNext in Hm. destruct (get_next _ _); [|discriminate]. destruct (remove _ _) as [h|]; [|discriminate].
            exists h. split; [reflexivity|]. destruct (if _ && _ then _ else _); [|discriminate]. now injection Hm as <- <-.
          - destruct (pred _ _); [|discriminate]. injection Hs as <- <-. cbn [cells at_ put_cells] in Hnl.
            destruct (Nat.eq_dec c (cur (base d) i)) as [|Hne]; [assumption|]. exfalso. apply Hnl.
            apply in_map_iff. exists (c, v). split; [reflexivity|]. unfold drop. apply filter_In. split; [assumption|].
            cbn [fst]. now apply negb_true_iff, Nat.eqb_neq.
          - unfold removeToPrev in Hm. destruct (get_prev _ _); [|discriminate]. destruct (remove _ _) as [h|]; [|discriminate].
            exists h. split; [reflexivity|]. destruct (if _ && _ then _ else _); [|discriminate]. now injection Hm as <- <-. }
        destruct Hc as (-> & h & Er & Eh). rewrite Hi in Er. apply remove_cut in Er as (nd2 & E2 & E3 & E4). rewrite <- Eh in E2.
        assert (nd2 = nd') by congruence. subst nd2. auto. }
    split; [assumption|]. cbn [base dead cut]. split; [|split].
    - rewrite map_app. apply NoDup_app_iff. split; [unfold gone; now apply nodup_filter_fst|]. split; [assumption|].
      intros c Hc1 Hc2. apply in_map_iff in Hc1 as ([c1 v1] & <- & Hc1). apply in_map_iff in Hc2 as ([c2 v2] & E & Hc2).
      cbn [fst] in *. subst c2. eapply Hgd; eassumption.
    - rewrite map_app. destruct (cutter o); intros c Hc; [apply in_app_or in Hc as [Hc|Hc]|]; apply in_or_app; auto.
    - intros c v Hin. apply in_app_or in Hin as [Hin|Hin].
      + split.
        * pose proof Hin as Hg. apply gone_in in Hg as [Hg1 Hg2]. intros Hc. apply names_in in Hc.
          apply (in_map fst) in Hg1. cbn [fst] in Hg1. destruct Hc as [->|[Hc| ->]]; contradiction.
        * destruct (Hgn _ _ Hin) as (nd & E1 & E2 & E3). exists nd. split; [assumption|]. split; [assumption|].
          intros Hc. destruct (cutter o); [auto|]. exfalso. apply Hcut in Hc. apply in_map_iff in Hc as ([c2 w] & E & Hc).
          cbn [fst] in E. subst c2. eapply Hgd; eassumption.
      + split; [eapply Hout; exact Hin|]. rewrite (Hdn _ _ Hin). destruct (Hd _ _ Hin) as (_ & nd & E1 & E2 & E3).
        exists nd. split; [assumption|]. split; [assumption|]. intros Hc. apply E3.
        destruct (cutter o); [|assumption]. apply in_app_or in Hc as [Hc|Hc]; [|assumption].
        exfalso. apply in_map_iff in Hc as ([c2 w] & E & Hc). cbn [fst] in E. subst c2. eapply Hgd; eassumption.
  Qed.

  Lemma held_cases d c u : held d c = Some u -> In (c, u) (cells (base d)) \/ In (c, u) (dead d).
  Proof. unfold held. intros H. apply value_of_in in H. now apply in_app_or in H. Qed.
  Lemma held_node s d c u : DRel s d -> held d c = Some u -> exists nd, nth_error (hp (lst s)) c = Some nd /\ nval nd = u.
  Proof.
    intros (HR & _ & _ & Hd) H. apply held_cases in H as [H|H]; [eapply cell_node; eassumption|].
    destruct (Hd _ _ H) as (_ & nd & E1 & E2 & _). eauto.
  Qed.
  Lemma put_same t : put_cells t (cells t) = t.
  Proof. now destruct t. Qed.
  Lemma set_held s d c u w : DRel s d -> held d c = Some u ->
    exists h', set_val (hp (lst s)) (Some c) w = Some h' /\
      DRel (SYS (with_heap (lst s) h') (its s)) (DS (put_cells (base d) (write (cells (base d)) c w)) (write (dead d) c w) (cut d)).
  Proof.
    intros HD Hh. pose proof HD as (HR & Hn & Hcut & Hd). pose proof HR as [HRL Hi].
    destruct (held_node _ _ _ _ HD Hh) as (nd & Enth & _). destruct (set_val_some _ _ w _ Enth) as (h' & Es).
    exists h'. split; [assumption|]. pose proof Es as Es'. apply set_val_inv in Es' as (nd0 & E0 & E1 & Eo & El).
    assert (nd0 = nd) by congruence. subst nd0. clear E0.
    apply held_cases in Hh as [Hin|Hin].
    - assert (Hlive : existsb (Nat.eqb c) (map fst (cells (base d))) = true).
      { apply (live_in (base d)). now apply (in_map fst) in Hin. }
      destruct (setValue_ok _ _ _ _ w HRL Hlive) as (h2 & E2 & HR2). assert (h2 = h') by congruence. subst h2.
      assert (Hnc : forall a v, In (a, v) (dead d) -> a <> c).
      { intros a v Ha ->. apply (proj1 (Hd _ _ Ha)), names_in. right. left. now apply (in_map fst) in Hin. }
      rewrite (write_absent (dead d)).
      2:{ intros H. apply in_map_iff in H as ([a v] & E & Ha). cbn [fst] in E. subst a. now apply Hnc in Ha. }
      split; [split; [exact HR2|exact Hi]|]. split; [assumption|]. split; [assumption|]. cbn [dead base cut lst].
      intros a v Ha. destruct (Hd _ _ Ha) as (H1 & H2). split.
      + rewrite names_in in H1 |- *. cbn [put_cells cells]. now rewrite write_names.
      + cbn [with_heap hp]. rewrite Eo by (eapply Hnc; exact Ha). assumption.
    - destruct (Hd _ _ Hin) as (Hnn & nd1 & En1 & _). assert (nd1 = nd) by congruence. subst nd1.
      rewrite (write_absent (cells (base d))), put_same by (intros H; apply Hnn, names_in; auto).
      split; [|split; [|split]]; cbn [base dead cut lst].
      + split; [|exact Hi]. destruct HRL as (H1 & H2 & H3 & H4 & vh & vt & H5 & H6). cbn [lst].
        split; [exact H1|]. split; [exact H2|]. split; [exact H3|]. split; [cbn [with_heap hp]; congruence|].
        exists vh, vt. split; [assumption|]. cbn [with_heap hp]. eapply chain_frame; [|exact H6].
        intros a Ha. apply Eo. intros ->. rewrite <- (names_full (base d) vh vt) in Ha. contradiction.
      + now rewrite write_names.
      + now rewrite write_names.
      + intros a v Ha. apply write_in in Ha as [[-> ->]|[Hne Ha]]; [| |assumption].
        * split; [assumption|]. eexists; split; [exact E1|]. split; [reflexivity|]. cbn [nprev nnext].
          destruct (Hd _ _ Hin) as (_ & nd1 & En & _ & Hc). assert (nd1 = nd) by congruence. subst nd1. exact Hc.
        * cbn [with_heap hp]. rewrite Eo by assumption. auto.
  Qed.
  Lemma held_write d c u w : held d c = Some u -> forall b v, held d b = Some v ->
    exists v', held (DS (put_cells (base d) (write (cells (base d)) c w)) (write (dead d) c w) (cut d)) b = Some v'.
  Proof.
    intros _ b v Hb. unfold held in *. cbn [base dead cells put_cells].
    destruct (value_of (write _ _ _ ++ _) b) eqn:E; [eauto|]. apply value_of_none in E. exfalso. apply E.
    rewrite map_app, !write_names, <- map_app. apply value_of_in in Hb. now apply (in_map fst) in Hb.
  Qed.

  Theorem d_step_ok s d o d' r : DRel s d -> d_spec d o = Some (d', r) -> exists s', sys_step s o = Some (s', r) /\ DRel s' d'.
  Proof.
    intros HD H. pose proof HD as (HR & Hn & Hcut & Hd). pose proof HR as [HRL Hi]. unfold d_spec in H.
    destruct (c_spec (base d) o) as [[t' r']|] eqn:Ec.
    - cbn zeta in H. injection H as <- <-. destruct (sys_step_ok _ _ _ _ _ HR Ec) as (s' & Em & HR').
      exists s'. split; [assumption|]. eapply dead_step; eassumption.
    - assert (Hheld : forall c v, value_of (dead d) c = Some v -> held d c = Some v).
      { intros c v Hv. unfold held. pose proof (value_of_in _ _ _ Hv) as Hin. destruct (Hd _ _ Hin) as (Hnn & _).
        unfold value_of in *. clear - Hv Hnn. destruct (find _ (dead d)) as [[a w]|] eqn:E; [|discriminate].
        assert (Hf : find (fun x : cell => fst x =? c) (cells (base d)) = None).
        { destruct (find _ (cells (base d))) as [[b u]|] eqn:E2; [|reflexivity]. exfalso. apply Hnn, names_in.
          apply find_some in E2 as [E2 E3]. cbn [fst] in E3. apply Nat.eqb_eq in E3. subst b. right. left. now apply (in_map fst) in E2. }
        revert Hf. induction (cells (base d)) as [|x L IH]; cbn [app find]; [now rewrite E|]. destruct (fst x =? c); [discriminate|]. apply IH. }
      destruct o as [|i circ a]; [discriminate|]. cbn [sys_step]. unfold iter_act. destruct a; try discriminate H.
      + destruct (value_of (dead d) (cur (base d) i)) as [v|] eqn:Ev; [|discriminate]. injection H as <- <-.
        exists s. split; [|assumption]. unfold valid. rewrite Hi. destruct HRL as (-> & -> & _). cbn [ptr_eqb].
        apply value_of_in in Ev. destruct (Hd _ _ Ev) as (Hnn & _). rewrite names_in in Hnn.
        destruct (Nat.eqb_spec (cur (base d) i) 0); [tauto|]. destruct (Nat.eqb_spec (cur (base d) i) 1); [tauto|]. reflexivity.
      + destruct (value_of (dead d) (cur (base d) i)) as [v|] eqn:Ev; [|discriminate]. injection H as <- <-.
        exists s. split; [|assumption]. unfold value. rewrite Hi. cbn [deref]. apply value_of_in in Ev.
        destruct (Hd _ _ Ev) as (_ & nd & -> & <- & _). reflexivity.
      + destruct (value_of (dead d) (cur (base d) i)) as [v0|] eqn:Ev; [|discriminate]. injection H as <- <-.
        unfold setValue. rewrite Hi. pose proof (value_of_in _ _ _ Ev) as Hin. destruct (Hd _ _ Hin) as (Hnn & _).
        destruct (set_held s d (cur (base d) i) v0 v HD (Hheld _ _ Ev)) as (h' & -> & HD').
        eexists; split; [reflexivity|].
        rewrite (write_absent (cells (base d))), put_same in HD' by (intros Hx; apply Hnn, names_in; auto). exact HD'.
      + cbn zeta in H. destruct (held d (cur (base d) i)) as [v|] eqn:E1; [|discriminate].
        destruct (held d (cur (base d) j)) as [w|] eqn:E2; [|discriminate]. injection H as <- <-.
        unfold swap. rewrite !Hi. cbn [deref].
        destruct (held_node _ _ _ _ HD E1) as (nc & -> & <-). destruct (held_node _ _ _ _ HD E2) as (nj & -> & <-).
        destruct (set_held s d _ _ (nval nj) HD E1) as (h1 & -> & HD1).
        destruct (held_write _ _ _ (nval nj) E1 _ _ E2) as (u & E3).
        destruct (set_held _ _ _ _ (nval nc) HD1 E3) as (h2 & Es2 & HD2). cbn [lst hp with_heap] in Es2. rewrite Es2.
        eexists; split; [reflexivity|]. exact HD2.
  Qed.

  (** a cell that an iterator removed: a call through it that would move it, or link to it, panics *)
  Lemma cut_node s d c : DRel s d -> In c (cut d) -> exists nd, nth_error (hp (lst s)) c = Some nd /\ nprev nd = None /\ nnext nd = None.
  Proof.
    intros (_ & _ & Hcut & Hd) H. pose proof (Hcut _ H) as Hin. apply in_map_iff in Hin as ([a v] & E & Hin).
    cbn [fst] in E. subst a. destruct (Hd _ _ Hin) as (_ & nd & E1 & _ & E2). exists nd. tauto.
  Qed.
End Stale.
