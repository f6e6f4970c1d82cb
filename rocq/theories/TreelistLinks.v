(** The thread of a tree list under insertion, cutting and trimming. *)
From Verif Require Import Base Bind AvlTree TreelistSpec TreelistModel.

Section Lists.
  Context {X : Type}.
  Implicit Types (a b l : list X).
  Lemma last_snoc a x : last_error (a ++ [x]) = Some x.
  Proof. unfold last_error. rewrite rev_app_distr. reflexivity. Qed.
  Lemma last_nil : last_error (@nil X) = None.
  Proof. reflexivity. Qed.
  Lemma last_app a b : b <> [] -> last_error (a ++ b) = last_error b.
  Proof.
    intros H. destruct (exists_last H) as (b' & x & ->). rewrite app_assoc, !last_snoc. reflexivity.
  Qed.
  Lemma hd_app a b : a <> [] -> hd_error (a ++ b) = hd_error a.
  Proof. destruct a; [congruence|reflexivity]. Qed.
  Lemma snoc_cases a : a = [] \/ exists a' x, a = a' ++ [x].
  Proof. destruct a as [|y a]; [auto|]. right. destruct (@exists_last _ (y :: a)) as (a' & x & E); [congruence|]. eauto. Qed.
  Lemma app_mid a b a' y b' : a ++ b = a' ++ y :: b' ->
    (exists c, a = a' ++ y :: c /\ b' = c ++ b) \/ (exists c, b = c ++ y :: b' /\ a' = a ++ c).
  Proof.
    revert a'. induction a as [|x a IH]; intros a' H; cbn [app] in H; [right; exists a'; auto|].
    destruct a' as [|x' a']; cbn [app] in H; injection H as -> H.
    - left. exists a. auto.
    - destruct (IH a' H) as [(c & -> & ->)|(c & -> & ->)]; [left|right]; exists c; auto.
  Qed.
  Lemma nodup_mid a x b : NoDup (a ++ x :: b) -> ~ In x a /\ ~ In x b /\ NoDup (a ++ b).
  Proof.
    intros H. apply NoDup_remove in H. destruct H as (H1 & H2). rewrite in_app_iff in H2. tauto.
  Qed.
  Lemma NoDup_app_remove_r a b : NoDup (a ++ b) -> NoDup a.
  Proof. induction a as [|x a IH]; [constructor|]. intros H. inversion_clear H. constructor; auto. rewrite in_app_iff in H0. tauto. Qed.
  Lemma NoDup_app_remove_l a b : NoDup (a ++ b) -> NoDup b.
  Proof. induction a as [|x a IH]; [auto|]. intros H. inversion_clear H. auto. Qed.
  Lemma nodup_apart a b x : NoDup (a ++ b) -> In x a -> In x b -> False.
  Proof.
    induction a as [|y a IH]; [intros _ []|]. intros H [->|Hx] Hb; inversion_clear H; [|auto]. apply H0. rewrite in_app_iff. auto.
  Qed.
  Lemma hd_in l x : hd_error l = Some x -> In x l.
  Proof. destruct l; [discriminate|]. intros [= ->]. simpl; auto. Qed.
  Lemma last_in l x : last_error l = Some x -> In x l.
  Proof. intros H. apply hd_in in H. apply in_rev. exact H. Qed.
End Lists.

Section Links.
  Notation linkedl lk l := (linked (d lk) (e lk) l).
  Implicit Types (lk : links) (l : list nat).

  Lemma setd_here x dir y lk : d (setd x dir y lk) x dir = y.
  Proof. cbn. rewrite Nat.eqb_refl, eqb_reflx. reflexivity. Qed.
  Lemma setd_other x (dir : bool) y lk i (b : bool) : i <> x \/ b <> dir -> d (setd x dir y lk) i b = d lk i b.
  Proof.
    intros H. cbn. destruct (Nat.eqb_spec i x); [|reflexivity]. destruct (eqb b dir) eqn:E; [|reflexivity].
    apply eqb_prop in E. tauto.
  Qed.
  Lemma setd_e x dir y lk : e (setd x dir y lk) = e lk. Proof. reflexivity. Qed.
  Lemma sete_d dir y lk : d (sete dir y lk) = d lk. Proof. reflexivity. Qed.
  Lemma sete_here dir y lk : e (sete dir y lk) dir = y. Proof. cbn. rewrite eqb_reflx. reflexivity. Qed.
  Lemma sete_other (dir : bool) y lk (b : bool) : b <> dir -> e (sete dir y lk) b = e lk b.
  Proof. intros H. cbn. destruct (eqb b dir) eqn:E; [|reflexivity]. apply eqb_prop in E. tauto. Qed.

  Definition tie_left (a : option nat) y lk := match a with Some x => setd x true y lk | None => sete false y lk end.
  Definition tie_right (b : option nat) y lk := match b with Some x => setd x false y lk | None => sete true y lk end.
  Lemma tie_left_d a y lk i (b : bool) : d (tie_left a y lk) i b = if b then (match a with Some x => if Nat.eqb i x then y else d lk i b | None => d lk i b end) else d lk i b.
  Proof. destruct a as [x|], b; cbn; rewrite ?andb_true_r, ?andb_false_r; reflexivity. Qed.
  Lemma tie_right_d a y lk i (b : bool) : d (tie_right a y lk) i b = if b then d lk i b else (match a with Some x => if Nat.eqb i x then y else d lk i b | None => d lk i b end).
  Proof. destruct a as [x|], b; cbn; rewrite ?andb_true_r, ?andb_false_r; reflexivity. Qed.
  Lemma tie_left_e a y lk (b : bool) : e (tie_left a y lk) b = if b then e lk b else match a with Some _ => e lk b | None => y end.
  Proof. destruct a, b; reflexivity. Qed.
  Lemma tie_right_e a y lk (b : bool) : e (tie_right a y lk) b = if b then match a with Some _ => e lk b | None => y end else e lk b.
  Proof. destruct a, b; reflexivity. Qed.

  Lemma unlink_tie p q lk : unlink p q lk = tie_right q p (tie_left p q lk).
  Proof. reflexivity. Qed.
  Lemma attach_tie x p q lk :
    attachLinks x p q lk = setd x true q (setd x false p (tie_right q (Some x) (tie_left p (Some x) lk))).
  Proof. reflexivity. Qed.

  (** cutting [mid] out *)
  Lemma unlink_ok lk a mid b : linkedl lk (a ++ mid ++ b) -> NoDup (a ++ mid ++ b) ->
    linkedl (unlink (last_error a) (hd_error b) lk) (a ++ b).
  Proof.
    intros (H1 & H2 & H3) Hn. rewrite unlink_tie.
    assert (Ha : forall x, In x a -> In x b -> False).
    { clear - Hn. induction a as [|y a IH]; cbn [app] in Hn; [intros x []|]. apply NoDup_cons_iff in Hn. destruct Hn as (N1 & N2).
      intros x [->|Hx] Hb; [|exact (IH N2 x Hx Hb)]. apply N1. rewrite !in_app_iff. auto. }
    split; [|split].
    - rewrite tie_right_e, tie_left_e. destruct (snoc_cases a) as [->|(a' & x & ->)]; [reflexivity|].
      rewrite last_snoc. rewrite H1. destruct a'; reflexivity.
    - rewrite tie_right_e, tie_left_e. destruct b as [|y b]; cbn [hd_error].
      + rewrite app_nil_r. reflexivity.
      + rewrite H2. rewrite app_assoc. rewrite !last_app by congruence. reflexivity.
    - intros a' y b' E. apply app_mid in E. destruct E as [(c & -> & ->)|(c & -> & ->)].
      + specialize (H3 a' y (c ++ mid ++ b)). rewrite <- app_assoc in H3. specialize (H3 eq_refl). destruct H3 as (H3 & H4).
        rewrite <- app_assoc in Hn. cbn [app] in Hn. apply nodup_mid in Hn. destruct Hn as (N1 & N2 & N3).
        rewrite !tie_right_d, !tie_left_d, H3, H4. split.
        * destruct (hd_error b) as [z|] eqn:Ez; [|reflexivity]. destruct (Nat.eqb_spec y z); [|reflexivity]. subst z. apply hd_in in Ez.
          destruct (Ha y); auto. apply in_or_app. simpl. auto.
        * destruct (snoc_cases c) as [->|(c' & z & ->)].
          -- rewrite last_snoc. rewrite Nat.eqb_refl. reflexivity.
          -- change (a' ++ y :: c' ++ [z]) with (a' ++ (y :: c') ++ [z]). rewrite app_assoc, last_snoc.
             destruct (Nat.eqb_spec y z).
             ++ destruct N2. subst z. rewrite !in_app_iff. left. right. simpl. auto.
             ++ rewrite !(hd_app (c' ++ [z])); auto; destruct c'; discriminate.
      + specialize (H3 (a ++ mid ++ c) y b'). rewrite <- !app_assoc in H3. specialize (H3 eq_refl). destruct H3 as (H3 & H4).
        rewrite !app_assoc in Hn. apply nodup_mid in Hn. destruct Hn as (N1 & N2 & N3).
        rewrite !tie_right_d, !tie_left_d, H3, H4. split.
        * destruct c as [|z c]; cbn [app hd_error].
          -- rewrite Nat.eqb_refl, app_nil_r. reflexivity.
          -- destruct (Nat.eqb_spec y z).
             ++ destruct N1. subst z. rewrite !in_app_iff. right. simpl. auto.
             ++ rewrite (last_app a (mid ++ z :: c)), (last_app mid), (last_app a); auto; destruct mid; discriminate.
        * destruct (last_error a) as [z|] eqn:Ez; [|reflexivity]. destruct (Nat.eqb_spec y z); [|reflexivity]. subst z. apply last_in in Ez.
          destruct (Ha y); auto. apply in_or_app. simpl. auto.
  Qed.

  (** a new node between *)
  Lemma attachLinks_ok lk x a b : linkedl lk (a ++ b) -> NoDup (a ++ x :: b) ->
    linkedl (attachLinks x (last_error a) (hd_error b) lk) (a ++ x :: b).
  Proof.
    intros H Hn. assert (N := nodup_mid _ _ _ Hn). destruct N as (Na & Nb & N). rewrite attach_tie.
    destruct H as (H1 & H2 & H3). split; [|split].
    - rewrite !setd_e, tie_right_e, tie_left_e. destruct (snoc_cases a) as [->|(a' & z & ->)]; [reflexivity|].
      rewrite last_snoc, H1. destruct a'; reflexivity.
    - rewrite !setd_e, tie_right_e, tie_left_e. destruct b as [|y b]; cbn [hd_error].
      + rewrite last_snoc. reflexivity.
      + rewrite H2. rewrite !last_app by congruence. change (x :: y :: b) with ([x] ++ (y :: b)). rewrite last_app by congruence. reflexivity.
    - intros a' y b' E. apply app_mid in E. destruct E as [(c & -> & ->)|(c & E & ->)].
      + assert (Hxy : y <> x) by (intros ->; apply Na, in_or_app; simpl; auto).
        specialize (H3 a' y (c ++ b)). rewrite <- app_assoc in H3. specialize (H3 eq_refl). destruct H3 as (H3 & H4).
        rewrite !setd_other by auto. rewrite !tie_right_d, !tie_left_d, H3, H4.
        rewrite <- app_assoc in N. cbn [app] in N. apply nodup_mid in N. destruct N as (N1 & N2 & N3). split.
        * destruct (hd_error b) as [z|] eqn:Ez; [|reflexivity]. destruct (Nat.eqb_spec y z); [|reflexivity]. subst z. apply hd_in in Ez.
          destruct N2. apply in_or_app; auto.
        * destruct (snoc_cases c) as [->|(c' & z & ->)].
          -- rewrite last_snoc, Nat.eqb_refl. reflexivity.
          -- change (a' ++ y :: c' ++ [z]) with (a' ++ (y :: c') ++ [z]). rewrite app_assoc, last_snoc.
             destruct (Nat.eqb_spec y z).
             ++ destruct N2. subst z. rewrite !in_app_iff. left. right. simpl. auto.
             ++ rewrite !(hd_app (c' ++ [z])); auto; destruct c'; discriminate.
      + destruct c as [|z c]; cbn [app] in E; injection E as E1 E2.
        * subst y b'. rewrite app_nil_r. rewrite setd_other by (right; discriminate). rewrite !setd_here. auto.
        * subst z b.
          assert (Hxy : y <> x) by (intros ->; apply Nb, in_or_app; simpl; auto).
          specialize (H3 (a ++ c) y b'). rewrite <- app_assoc in H3. specialize (H3 eq_refl). destruct H3 as (H3 & H4).
          rewrite !setd_other by auto. rewrite !tie_right_d, !tie_left_d, H3, H4.
          rewrite app_assoc in N. apply nodup_mid in N. destruct N as (N1 & N2 & N3). split.
          -- destruct c as [|z c]; cbn [app hd_error].
             ++ rewrite Nat.eqb_refl, last_snoc. reflexivity.
             ++ destruct (Nat.eqb_spec y z).
                ** destruct N1. subst z. rewrite in_app_iff. right. simpl. auto.
                ** rewrite !last_app by congruence. change (x :: z :: c) with ([x] ++ z :: c). rewrite last_app by congruence. reflexivity.
          -- destruct (last_error a) as [z|] eqn:Ez; [|reflexivity]. destruct (Nat.eqb_spec y z); [|reflexivity]. subst z. apply last_in in Ez.
             destruct N1. apply in_or_app; auto.
  Qed.

  (** keeping only [mid] *)
  Definition closed (lhand rhand : nat) lk : links :=
    sete true (Some rhand) (setd rhand true None (sete false (Some lhand) (setd lhand false None lk))).
  Lemma closed_ok lk a mid b x y : linkedl lk (a ++ mid ++ b) -> NoDup mid -> hd_error mid = Some x -> last_error mid = Some y ->
    linkedl (closed x y lk) mid.
  Proof.
    intros (_ & _ & H3) Hn Hx Hy. split; [|split].
    - unfold closed. rewrite sete_other by discriminate. cbn. auto.
    - unfold closed. rewrite sete_here. auto.
    - intros a' z b' E. subst mid. specialize (H3 (a ++ a') z (b' ++ b)). rewrite <- !app_assoc in H3. specialize (H3 eq_refl).
      destruct H3 as (H3 & H4). apply nodup_mid in Hn. destruct Hn as (N1 & N2 & N3).
      unfold closed. rewrite sete_d. split.
      + rewrite setd_other, sete_d by (right; discriminate). destruct a' as [|w a'].
        * cbn in Hx. injection Hx as ->. rewrite setd_here. reflexivity.
        * cbn in Hx. injection Hx as ->. rewrite setd_other by (left; intros ->; apply N1; simpl; auto).
          rewrite H3, last_app by congruence. reflexivity.
      + destruct (snoc_cases b') as [->|(c & w & ->)].
        * rewrite last_snoc in Hy. injection Hy as ->. rewrite setd_here. reflexivity.
        * change (z :: c ++ [w]) with ((z :: c) ++ [w]) in Hy. rewrite app_assoc, last_snoc in Hy. injection Hy as ->.
          rewrite setd_other by (left; intros ->; apply N2; rewrite in_app_iff; simpl; auto). rewrite sete_d, setd_other by (right; discriminate).
          rewrite H4, hd_app by (destruct c; discriminate). reflexivity.
  Qed.

  Lemma cleared_ok lk : linkedl (sete true None (sete false None lk)) [].
  Proof. split; [reflexivity|split; [reflexivity|]]. intros a x b E. destruct a; discriminate. Qed.

  Lemma linked_left lk a x b : linkedl lk (a ++ x :: b) -> d lk x false = last_error a.
  Proof. intros (_ & _ & H). apply (H a x b eq_refl). Qed.
  Lemma linked_right lk a x b : linkedl lk (a ++ x :: b) -> d lk x true = hd_error b.
  Proof. intros (_ & _ & H). apply (H a x b eq_refl). Qed.
End Links.
