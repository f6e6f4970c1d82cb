(** Proof tools for programs that relink doubly linked nodes: a heap holds several disjoint chain segments, an
    assignment to the [next] of the last node (or the [prev] of the first node) of a segment changes only where that
    segment points to. *)
From Verif Require Import Base DLL.

Lemma NoDup_app_iff {X} (l1 l2 : list X) :
  NoDup (l1 ++ l2) <-> NoDup l1 /\ NoDup l2 /\ (forall x, In x l1 -> In x l2 -> False).
Proof.
  induction l1 as [|a l1 IH]; simpl.
  - split; [intros H; repeat split; [constructor|assumption|easy]|tauto].
  - rewrite !NoDup_cons_iff, IH, in_app_iff. split.
    + intros (H1 & H2 & H3 & H4). repeat split; try tauto. intros x [->|H5] H6; [tauto|eauto].
    + intros ((H1 & H2) & H3 & H4). repeat split; auto.
      * intros [H5|H5]; [tauto|]. eapply H4; eauto.
      * intros x H5 H6. eapply H4; eauto.
Qed.

Section Seg.
  Context {V : Type}.
  Implicit Types (h : heap V) (S M L : list (nat * V)) (p q n m : option nat).

  Definition disj S M : Prop := forall b, In b (map fst S) -> In b (map fst M) -> False.

  Lemma disj_sym S M : disj S M -> disj M S.
  Proof. intros H b H1 H2. eapply H; eauto. Qed.
  Lemma nodup_disj S M : NoDup (map fst (S ++ M)) <-> NoDup (map fst S) /\ NoDup (map fst M) /\ disj S M.
  Proof. rewrite map_app. apply NoDup_app_iff. Qed.

  Lemma last_ptr_in S p b : S <> [] -> last_ptr p S = Some b -> In b (map fst S).
  Proof.
    destruct S as [|x S _] using rev_ind; [congruence|]. destruct x as [a v]. intros _.
    rewrite last_ptr_snoc. intros [= ->]. rewrite map_app. apply in_or_app; right; left; reflexivity.
  Qed.
  Lemma hd_ptr_in S n b : S <> [] -> hd_ptr S n = Some b -> In b (map fst S).
  Proof. destruct S as [|[a v] S]; [congruence|]. intros _ [= ->]. left; reflexivity. Qed.
  Lemma last_ptr_irrel S p q : S <> [] -> last_ptr p S = last_ptr q S.
  Proof. destruct S as [|[a v] S]; [congruence|reflexivity]. Qed.
  Lemma hd_ptr_irrel S p q : S <> [] -> hd_ptr S p = hd_ptr S q.
  Proof. destruct S as [|[a v] S]; [congruence|reflexivity]. Qed.

  Lemma chain_one h p a v n : chain h p [(a, v)] n <-> nth_error h a = Some (mk p n v).
  Proof. simpl. tauto. Qed.

  (** reading the outward pointers of a segment *)
  Lemma seg_prev h p S n q : S <> [] -> chain h p S n ->
    exists nd, deref h (hd_ptr S q) = Some nd /\ nprev nd = p.
  Proof.
    destruct S as [|[a v] S]; [congruence|]. intros _ [H _]. simpl. rewrite H. eexists; split; reflexivity.
  Qed.
  Lemma seg_next h p S n q : S <> [] -> chain h p S n ->
    exists nd, deref h (last_ptr q S) = Some nd /\ nnext nd = n.
  Proof.
    destruct S as [|[a v] S _] using rev_ind; [congruence|]. intros _ H. rewrite last_ptr_snoc.
    apply chain_app in H as [_ [H _]]. simpl. rewrite H. eexists; split; reflexivity.
  Qed.

  (** writing them *)
  Lemma seg_set_next h p S n n' q : S <> [] -> NoDup (map fst S) -> chain h p S n ->
    exists h', set_next h (last_ptr q S) n' = Some h' /\ length h' = length h /\ chain h' p S n' /\
      (forall M q' m, disj S M -> chain h q' M m -> chain h' q' M m).
  Proof.
    destruct S as [|[a v] S _] using rev_ind; [congruence|]. intros _ Hn H. rewrite last_ptr_snoc.
    rewrite map_app in Hn. destruct (chain_set_next h a v S p n n' Hn H) as (h' & E & El & Hc & Hf).
    exists h'. repeat split; auto. intros M q' m Hd HM. apply (chain_frame h); [|assumption].
    intros b Hb. apply Hf. intros ->. apply (Hd a); [|assumption].
    rewrite map_app. apply in_or_app; right; left; reflexivity.
  Qed.
  Lemma seg_set_prev h p S n p' q : S <> [] -> NoDup (map fst S) -> chain h p S n ->
    exists h', set_prev h (hd_ptr S q) p' = Some h' /\ length h' = length h /\ chain h' p' S n /\
      (forall M q' m, disj S M -> chain h q' M m -> chain h' q' M m).
  Proof.
    destruct S as [|[a v] S]; [congruence|]. intros _ Hn H. cbn [hd_ptr].
    destruct (chain_set_prev h a v S p p' n Hn H) as (h' & E & El & Hc & Hf).
    exists h'. repeat split; auto; try apply Hc. intros M q' m Hd HM. apply (chain_frame h); [|assumption].
    intros b Hb. apply Hf. intros ->. apply (Hd a); [|assumption]. left; reflexivity.
  Qed.
  Lemma seg_set_val h p L1 a v L2 n v' : NoDup (map fst (L1 ++ (a, v) :: L2)) -> chain h p (L1 ++ (a, v) :: L2) n ->
    exists h', set_val h (Some a) v' = Some h' /\ length h' = length h /\ chain h' p (L1 ++ (a, v') :: L2) n /\
      (forall M q' m, ~ In a (map fst M) -> chain h q' M m -> chain h' q' M m).
  Proof.
    intros Hn H. pose proof (chain_node _ _ _ _ _ _ _ H) as Ha.
    rewrite (set_val_ok _ _ v' _ Ha). eexists; split; [reflexivity|]. rewrite list_set_length. split; [reflexivity|].
    apply nodup_disj in Hn as (Hn1 & Hn2 & Hd). cbn [map fst] in Hn2. apply NoDup_cons_iff in Hn2 as [Hn2 Hn3].
    split.
    - apply chain_app in H as [H1 [_ H3]]. apply chain_app. split.
      + cbn [hd_ptr] in *. apply chain_set_other; [|assumption]. intros Hin. apply (Hd a Hin). left; reflexivity.
      + cbn [chain]. split.
        * cbn [nprev nnext]. apply nth_error_list_set_eq. apply nth_error_Some. congruence.
        * apply chain_set_other; assumption.
    - intros M q' m Hm HM. apply chain_set_other; assumption.
  Qed.
  (** allocation makes a one-node segment, apart from all others *)
  Lemma seg_alloc h p S n x : chain h p S n -> chain (h ++ [x]) p S n /\ ~ In (length h) (map fst S).
  Proof.
    intros H. split; [apply chain_alloc; assumption|]. intros Hin. apply chain_lt in H. rewrite Forall_forall in H.
    apply in_map_iff in Hin as ([a v] & E & Ha). apply H in Ha. simpl in *. lia.
  Qed.
  Lemma seg_new h pr nx v : chain (h ++ [mk pr nx v]) pr [(length h, v)] nx.
  Proof. simpl. rewrite nth_error_app2, Nat.sub_diag by lia. split; [reflexivity|exact I]. Qed.
  Lemma disj_new h p S n v : chain h p S n -> disj S [(length h, v)].
  Proof. intros H b H1 [<-|[]]. apply (proj2 (seg_alloc h p S n (mk None None v) H)). exact H1. Qed.
  Lemma disj_app_l S S' M : disj (S ++ S') M <-> disj S M /\ disj S' M.
  Proof.
    unfold disj. split.
    - intros H. split; intros b H1; apply H; rewrite map_app; apply in_or_app; auto.
    - intros [H1 H2] b. rewrite map_app, in_app_iff. intros [H|H]; [apply H1|apply H2]; assumption.
  Qed.
  Lemma disj_app_r S M M' : disj S (M ++ M') <-> disj S M /\ disj S M'.
  Proof.
    unfold disj. split.
    - intros H. split; intros b H1 H2; apply (H b H1); rewrite map_app; apply in_or_app; auto.
    - intros [H1 H2] b H. rewrite map_app, in_app_iff. intros [H'|H']; [apply (H1 b)|apply (H2 b)]; assumption.
  Qed.
End Seg.

(** One assignment, executed in the goal: [seg_next H] where [H : chain h p S n] and the goal runs [set_next] on the
    last node of [S]; all other segments of [h] in the context are carried over to the new heap. *)
Ltac seg_ne := first [assumption | discriminate | (intros ?HX; destruct (app_cons_not_nil _ _ _ (eq_sym HX)))].
Ltac seg_dj := first [assumption | apply disj_sym; assumption].
Ltac seg_carry Hf h :=
  repeat match goal with
         | HM : chain h ?q ?M ?m |- _ => apply (Hf M q m ltac:(seg_dj)) in HM
         end.
Ltac seg_next H nn :=
  let h' := fresh "h" in let E := fresh "E" in let El := fresh "El" in let Hc := fresh "Hc" in let Hf := fresh "Hf" in
  lazymatch type of H with
  | chain ?h ?p ?S ?n =>
      destruct (seg_set_next h p S n nn None ltac:(seg_ne) ltac:(assumption) H) as (h' & E & El & Hc & Hf);
      cbn [last_ptr] in E; clear H; seg_carry Hf h; clear Hf; rename Hc into H
  end.
Ltac seg_prev H pp :=
  let h' := fresh "h" in let E := fresh "E" in let El := fresh "El" in let Hc := fresh "Hc" in let Hf := fresh "Hf" in
  lazymatch type of H with
  | chain ?h ?p ?S ?n =>
      destruct (seg_set_prev h p S n pp None ltac:(seg_ne) ltac:(assumption) H) as (h' & E & El & Hc & Hf);
      cbn [hd_ptr] in E; clear H; seg_carry Hf h; clear Hf; rename Hc into H
  end.

(** Reading outward pointers; taking a node out of the middle of a chain. *)
Section Surgery.
  Context {V : Type}.
  Implicit Types (h : heap V).
  Lemma snoc_ne {X} (l : list X) x : l ++ [x] <> [].
  Proof. destruct l; discriminate. Qed.
  Lemma get_prev_seg h p S n : S <> [] -> chain h p S n -> get_prev h (hd_ptr S None) = Some p.
  Proof. intros H1 H2. unfold get_prev. destruct (seg_prev h p S n None H1 H2) as (nd & -> & ->). reflexivity. Qed.
  Lemma get_next_seg h p S n : S <> [] -> chain h p S n -> get_next h (last_ptr None S) = Some n.
  Proof. intros H1 H2. unfold get_next. destruct (seg_next h p S n None H1 H2) as (nd & -> & ->). reflexivity. Qed.

  Lemma get_prev_one h p a v n : chain h p [(a, v)] n -> get_prev h (Some a) = Some p.
  Proof. intros H. apply (get_prev_seg h p [(a, v)] n); [discriminate|assumption]. Qed.
  Lemma get_next_one h p a v n : chain h p [(a, v)] n -> get_next h (Some a) = Some n.
  Proof. intros H. apply (get_next_seg h p [(a, v)] n); [discriminate|assumption]. Qed.
  Lemma cons_ne {X} (x : X) l : x :: l <> [].
  Proof. discriminate. Qed.

  Lemma unlink_ok h p A a v B n : A <> [] -> B <> [] -> NoDup (map fst (A ++ (a, v) :: B)) ->
    chain h p (A ++ (a, v) :: B) n ->
    exists h1 h2, get_prev h (Some a) = Some (last_ptr None A) /\ get_next h (Some a) = Some (hd_ptr B None) /\
      set_next h (last_ptr None A) (hd_ptr B None) = Some h1 /\
      set_prev h1 (hd_ptr B None) (last_ptr None A) = Some h2 /\
      chain h2 p (A ++ B) n /\ chain h2 (last_ptr p A) [(a, v)] (hd_ptr B n).
  Proof.
    intros HA HB Hn Hc. pose proof (chain_node _ _ _ _ _ _ _ Hc) as Ha.
    apply chain_app in Hc as [HcA Hc2]. change ((a, v) :: B) with ([(a, v)] ++ B) in *.
    apply chain_app in Hc2 as [HcX HcB].
    apply nodup_disj in Hn as (HnA & HnB & Hd1). apply nodup_disj in HnB as (HnX & HnB & Hd2).
    apply disj_app_r in Hd1 as [Hd1 Hd3].
    assert (E1 : get_prev h (Some a) = Some (last_ptr None A)).
    { unfold get_prev. cbn [deref]. rewrite Ha. cbn [nprev]. f_equal. apply last_ptr_irrel; assumption. }
    assert (E2 : get_next h (Some a) = Some (hd_ptr B None)).
    { unfold get_next. cbn [deref]. rewrite Ha. cbn [nnext]. f_equal. apply hd_ptr_irrel; assumption. }
    seg_next HcA (hd_ptr B None). seg_prev HcB (last_ptr None A).
    exists h0, h1. repeat (split; [assumption|]). split; [|exact HcX].
    apply chain_app. rewrite (hd_ptr_irrel B n None), (last_ptr_irrel A p None) by assumption. split; assumption.
  Qed.
End Surgery.
