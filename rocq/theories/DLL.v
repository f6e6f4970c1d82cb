(** Doubly linked nodes in an explicit heap.  A pointer is [option nat], [None] is nil; a dereference of nil
    (or of an address never allocated) gives [None], which models a panic.  Allocation appends a node.
    Used by the models of queue/list, list/linked_list, map/linkedhashmap. *)
From Verif Require Import Base.

Section DLL.
  Context {V : Type}.
  Record node := mk { nprev : option nat; nnext : option nat; nval : V }.
  Definition heap := list node.
  Definition ptr := option nat.

  Definition deref (h : heap) (p : ptr) : option node :=
    match p with None => None | Some a => nth_error h a end.
  Definition store (h : heap) (p : ptr) (n : node) : option heap :=
    match p with
    | None => None
    | Some a => if a <? length h then Some (list_set h a n) else None
    end.
  (** p.prev = q, p.next = q, p.value = v *)
  Definition set_prev (h : heap) (p q : ptr) : option heap :=
    match deref h p with None => None | Some n => store h p (mk q (nnext n) (nval n)) end.
  Definition set_next (h : heap) (p q : ptr) : option heap :=
    match deref h p with None => None | Some n => store h p (mk (nprev n) q (nval n)) end.
  Definition set_val (h : heap) (p : ptr) (v : V) : option heap :=
    match deref h p with None => None | Some n => store h p (mk (nprev n) (nnext n) v) end.
  Definition alloc (h : heap) (n : node) : heap * ptr := (h ++ [n], Some (length h)).

  (** p.prev and p.next as expressions; pointer comparison *)
  Definition get_prev (h : heap) (p : ptr) : option ptr :=
    match deref h p with None => None | Some nd => Some (nprev nd) end.
  Definition get_next (h : heap) (p : ptr) : option ptr :=
    match deref h p with None => None | Some nd => Some (nnext nd) end.
  Definition ptr_eqb (p q : ptr) : bool :=
    match p, q with None, None => true | Some a, Some b => a =? b | _, _ => false end.

  (** ** Chains (proof side) *)
  Definition hd_ptr (L : list (nat * V)) (n : ptr) : ptr := match L with [] => n | (a, _) :: _ => Some a end.
  Fixpoint last_ptr (p : ptr) (L : list (nat * V)) : ptr :=
    match L with [] => p | (a, _) :: L' => last_ptr (Some a) L' end.
  Fixpoint chain (h : heap) (p : ptr) (L : list (nat * V)) (n : ptr) : Prop :=
    match L with
    | [] => True
    | (a, v) :: L' => nth_error h a = Some (mk p (hd_ptr L' n) v) /\ chain h (Some a) L' n
    end.

  Lemma hd_ptr_app L1 L2 n : hd_ptr (L1 ++ L2) n = hd_ptr L1 (hd_ptr L2 n).
  Proof. destruct L1 as [|[a v] L1]; reflexivity. Qed.
  Lemma last_ptr_app L1 : forall L2 p, last_ptr p (L1 ++ L2) = last_ptr (last_ptr p L1) L2.
  Proof. induction L1 as [|[a v] L1 IH]; intros; simpl; auto. Qed.
  Lemma last_ptr_snoc L p a v : last_ptr p (L ++ [(a, v)]) = Some a.
  Proof. now rewrite last_ptr_app. Qed.

  Lemma chain_app h L1 : forall L2 p n,
    chain h p (L1 ++ L2) n <-> chain h p L1 (hd_ptr L2 n) /\ chain h (last_ptr p L1) L2 n.
  Proof.
    induction L1 as [|[a v] L1 IH]; intros L2 p n; simpl; [tauto|].
    rewrite IH, hd_ptr_app. tauto.
  Qed.

  Lemma chain_lt h L : forall p n, chain h p L n -> Forall (fun x => fst x < length h) L.
  Proof.
    induction L as [|[a v] L IH]; intros p n H; constructor; simpl in *.
    - apply nth_error_Some. destruct H as [-> _]. discriminate.
    - destruct H as [_ H]. eauto.
  Qed.
  Lemma chain_frame h h' L : forall p n, (forall a, In a (map fst L) -> nth_error h' a = nth_error h a) ->
    chain h p L n -> chain h' p L n.
  Proof.
    induction L as [|[a v] L IH]; intros p n Hf H; simpl in *; auto.
    destruct H as [H1 H2]. split; [rewrite Hf; auto|]. apply IH; auto.
  Qed.
  Lemma chain_alloc h x L p n : chain h p L n -> chain (h ++ [x]) p L n.
  Proof.
    intros H. apply (chain_frame h); [|assumption]. intros a Ha.
    apply nth_error_app1. apply chain_lt in H. rewrite Forall_forall in H.
    apply in_map_iff in Ha as ([b v] & <- & Hb). apply (H _ Hb).
  Qed.
  Lemma chain_set_other h a x L p n : ~ In a (map fst L) -> chain h p L n -> chain (list_set h a x) p L n.
  Proof.
    intros Ha. apply chain_frame. intros b Hb. apply nth_error_list_set_neq. congruence.
  Qed.

  (** the pieces of a node in a chain *)
  Lemma chain_node h L1 a v L2 p n : chain h p (L1 ++ (a, v) :: L2) n ->
    nth_error h a = Some (mk (last_ptr p L1) (hd_ptr L2 n) v).
  Proof. rewrite chain_app. simpl. tauto. Qed.

  Lemma set_prev_ok h a q nd : nth_error h a = Some nd ->
    set_prev h (Some a) q = Some (list_set h a (mk q (nnext nd) (nval nd))).
  Proof.
    intros H. unfold set_prev, deref, store. rewrite H.
    assert (a < length h) by (apply nth_error_Some; congruence).
    destruct (Nat.ltb_spec a (length h)); [reflexivity|lia].
  Qed.
  Lemma set_next_ok h a q nd : nth_error h a = Some nd ->
    set_next h (Some a) q = Some (list_set h a (mk (nprev nd) q (nval nd))).
  Proof.
    intros H. unfold set_next, deref, store. rewrite H.
    assert (a < length h) by (apply nth_error_Some; congruence).
    destruct (Nat.ltb_spec a (length h)); [reflexivity|lia].
  Qed.
  Lemma set_val_ok h a v nd : nth_error h a = Some nd ->
    set_val h (Some a) v = Some (list_set h a (mk (nprev nd) (nnext nd) v)).
  Proof.
    intros H. unfold set_val, deref, store. rewrite H.
    assert (a < length h) by (apply nth_error_Some; congruence).
    destruct (Nat.ltb_spec a (length h)); [reflexivity|lia].
  Qed.

  (** redirecting the first prev / the last next of a chain *)
  Lemma chain_set_prev h a v L p p' n : NoDup (a :: map fst L) -> chain h p ((a, v) :: L) n ->
    exists h', set_prev h (Some a) p' = Some h' /\ length h' = length h /\ chain h' p' ((a, v) :: L) n /\
      forall b, b <> a -> nth_error h' b = nth_error h b.
  Proof.
    intros Hn [H1 H2]. rewrite (set_prev_ok _ _ _ _ H1). eexists; split; [reflexivity|]. rewrite list_set_length.
    split; [reflexivity|]. inversion Hn; subst. split.
    - simpl. split.
      + apply nth_error_list_set_eq. apply nth_error_Some. congruence.
      + apply chain_set_other; assumption.
    - intros b Hb. apply nth_error_list_set_neq. congruence.
  Qed.
  Lemma chain_set_next h a v L p n n' : NoDup (map fst L ++ [a]) -> chain h p (L ++ [(a, v)]) n ->
    exists h', set_next h (Some a) n' = Some h' /\ length h' = length h /\ chain h' p (L ++ [(a, v)]) n' /\
      forall b, b <> a -> nth_error h' b = nth_error h b.
  Proof.
    intros Hn H. apply chain_app in H as [H1 [H2 _]]. simpl in H2. rewrite (set_next_ok _ _ _ _ H2).
    eexists; split; [reflexivity|]. rewrite list_set_length. split; [reflexivity|].
    assert (Ha : ~ In a (map fst L)).
    { apply NoDup_remove_2 in Hn. now rewrite app_nil_r in Hn. }
    split.
    - apply chain_app. split; [apply chain_set_other; assumption|]. simpl. split; [|exact I].
      apply nth_error_list_set_eq. apply nth_error_Some. congruence.
    - intros b Hb. apply nth_error_list_set_neq. congruence.
  Qed.
  Lemma ptr_eqb_spec (p q : ptr) : reflect (p = q) (ptr_eqb p q).
  Proof.
    destruct p as [a|], q as [b|]; simpl; try (constructor; congruence).
    destruct (Nat.eqb_spec a b); constructor; congruence.
  Qed.
End DLL.
Arguments node V : clear implicits.
Arguments heap V : clear implicits.
Arguments mk {V}.
