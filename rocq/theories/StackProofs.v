From Verif Require Import Base Machine StackSpec StackModel.
Require Import ZifyBool ZifyNat.

Lemma firstn_S_nth {A} (l : list A) n x : nth_error l n = Some x -> firstn (S n) l = firstn n l ++ [x].
Proof.
  revert n; induction l as [|h t IH]; intros [|n] H; simpl in *; try discriminate.
  - congruence.
  - f_equal. apply IH; assumption.
Qed.
Lemma firstn_list_set_ge {A} (l : list A) n i x : n <= i -> firstn n (list_set l i x) = firstn n l.
Proof. revert n i; induction l as [|h t IH]; intros [|n] [|i] H; simpl; auto; try lia. f_equal; apply IH; lia. Qed.

Lemma nth_error_lt_ex {A} (l : list A) n : n < length l -> exists x, nth_error l n = Some x.
Proof. intros H. destruct (nth_error l n) eqn:E; eauto. apply nth_error_None in E; lia. Qed.

Lemma hd_error_rev_snoc {A} (l : list A) x : hd_error (rev (l ++ [x])) = Some x.
Proof. rewrite rev_app_distr; reflexivity. Qed.

(* ---------------- array stack ---------------- *)
Module ArrayStackP.
Import ArrayStack.
Section P.
  Context {A : Type} (zero : A) (spare : nat -> nat).
  Definition Rel (s : st (A:=A)) (l : list A) : Prop :=
    len s <= length (buf s) /\ firstn (len s) (buf s) = rev l.
  Lemma Rel_len s l : Rel s l -> length l = len s.
  Proof. intros [H1 H2]. rewrite <- (rev_length l), <- H2, firstn_length. lia. Qed.
  Lemma sim s l o : Rel s l ->
    exists s', step zero spare s o = Some (s', snd (stack_spec l o)) /\ Rel s' (fst (stack_spec l o)).
  Proof.
    intros HR. pose proof (Rel_len _ _ HR) as HL. pose proof HR as [H1 H2].
    assert (Htop : forall c, len s = S c -> exists x l', l = x :: l' /\ nth_error (buf s) c = Some x
              /\ firstn c (buf s) = rev l').
    { intros c Hc. destruct l as [|x l']; [simpl in HL; lia|]. exists x, l'.
      destruct (nth_error_lt_ex (buf s) c) as [y Hy]; [lia|].
      rewrite Hc, (firstn_S_nth _ _ _ Hy) in H2. simpl in H2. apply app_inj_tail in H2 as [H2 H3].
      subst; auto. }
    destruct o; simpl.
    - eexists; split; [reflexivity|]. unfold push, Rel. destruct (Nat.ltb_spec (len s) (length (buf s))); simpl.
      + rewrite list_set_length. split; [lia|].
        rewrite (firstn_S_nth _ (len s) v) by (apply nth_error_list_set_eq; lia).
        rewrite firstn_list_set_ge by lia. now rewrite H2.
      + rewrite app_length, firstn_length; simpl. split; [lia|].
        replace (S (len s)) with (length (firstn (len s) (buf s)) + 1) by (rewrite firstn_length; lia).
        rewrite firstn_app_2. simpl. now rewrite H2.
    - unfold pop. destruct (Nat.eqb_spec (len s) 0) as [E|E].
      + destruct l; [|simpl in HL; lia]. eexists; split; [reflexivity|]. assumption.
      + destruct (len s) as [|c] eqn:Ec; [lia|]. destruct (Htop c eq_refl) as (x & l' & -> & Hn & Hf).
        replace (S c - 1) with c by lia. rewrite Hn. eexists; split; [reflexivity|]. unfold Rel; simpl. split; [lia|assumption].
    - unfold peek. destruct (Nat.eqb_spec (len s) 0) as [E|E].
      + destruct l; [|simpl in HL; lia]. eexists; split; [reflexivity|]. assumption.
      + destruct (len s) as [|c] eqn:Ec; [lia|]. destruct (Htop c eq_refl) as (x & l' & -> & Hn & Hf).
        replace (S c - 1) with c by lia. rewrite Hn. eexists; split; [reflexivity|]. exact HR.
    - eexists; split; [reflexivity|]. unfold Rel; simpl; auto with arith.
    - eexists; split; [|exact HR]. unfold empty. destruct l; simpl in HL; rewrite <- HL; reflexivity.
    - eexists; split; [|exact HR]. unfold size. now rewrite HL.
    - eexists; split; [|exact HR]. unfold values. now rewrite H2.
  Qed.
  Lemma run_correct ops : run (step zero spare) new ops = Some (srun stack_spec [] ops).
  Proof. apply (sim_run _ _ Rel sim). split; simpl; auto. Qed.
End P.
End ArrayStackP.

(* ---------------- linked stack ---------------- *)
Module ListStackP.
Import ListStack.
Section P.
  Context {A : Type} (zero : A).
  Definition Rel (s : st (A:=A)) (l : list A) : Prop := top s = l /\ size s = length l.
  Lemma fill_ok cur : forall (pre post : list A), length pre = length cur ->
    fill (pre ++ post) (length cur) cur = Some (rev cur ++ post).
  Proof.
    induction cur as [|v cur IH]; intros pre post H; simpl in *.
    - destruct pre; [reflexivity|discriminate].
    - destruct (rev pre) as [|z p] eqn:E.
      + rewrite <- (rev_length pre), E in H; discriminate.
      + assert (pre = rev p ++ [z]) as -> by (rewrite <- (rev_involutive pre), E; reflexivity).
        rewrite app_length in H; simpl in H.
        rewrite <- app_assoc; simpl. rewrite list_set_app_r by lia.
        replace (length cur - length (rev p)) with 0 by lia. simpl.
        rewrite IH by lia. now rewrite <- app_assoc.
  Qed.
  Lemma sim s l o : Rel s l ->
    exists s', step zero s o = Some (s', snd (stack_spec l o)) /\ Rel s' (fst (stack_spec l o)).
  Proof.
    destruct s as [t n]; intros [H1 H2]; simpl in *; subst.
    destruct o; simpl; unfold pop, peek, empty, values; simpl.
    - eexists; split; [reflexivity|split; reflexivity].
    - destruct l as [|x l']; simpl; eexists; split; try reflexivity; split; simpl; auto. lia.
    - destruct l as [|x l']; simpl; eexists; split; try reflexivity; split; simpl; auto.
    - eexists; split; [reflexivity|split; reflexivity].
    - destruct l as [|x l']; simpl; eexists; split; try reflexivity; split; simpl; auto.
    - eexists; split; [reflexivity|split; reflexivity].
    - destruct l as [|x l']; simpl length; [eexists; split; [reflexivity|split; reflexivity]|].
      simpl Nat.eqb. cbv iota.
      pose proof (fill_ok (x :: l') (repeat zero (S (length l'))) []) as Hf.
      rewrite repeat_length, !app_nil_r in Hf. change (length (x :: l')) with (S (length l')) in Hf. rewrite Hf by reflexivity.
      eexists; split; [reflexivity|split; reflexivity].
  Qed.
  Lemma run_correct ops : run (step zero) new ops = Some (srun stack_spec [] ops).
  Proof. apply (sim_run _ _ Rel sim). split; reflexivity. Qed.
End P.
End ListStackP.

(* ---------------- segmented stack ---------------- *)
Module SegStackP.
Import SegStack.
Section P.
  Context {A : Type} (zero : A).
  Definition used (b : block (A:=A)) : list A := firstn (curp b) (elements b).
  Definition full (b : block (A:=A)) : Prop := curp b = length (elements b) /\ 0 < curp b.
  (* contents, top of the stack first *)
  Fixpoint content (bs : list (block (A:=A))) : list A :=
    match bs with [] => [] | b :: bs' => rev (used b) ++ content bs' end.
  Definition Rel (s : st (A:=A)) (l : list A) : Prop :=
    content (top s :: downs s) = l /\ size s = length l /\
    curp (top s) <= length (elements (top s)) /\ 0 < length (elements (top s)) /\
    (downs s <> [] -> 0 < curp (top s)) /\ Forall full (downs s) /\
    (forall c, cache s = Some c -> 0 < length (elements c)).

  Lemma used_snoc b c x : curp b = S c -> nth_error (elements b) c = Some x ->
    used b = firstn c (elements b) ++ [x].
  Proof. intros H1 H2. unfold used. rewrite H1. apply firstn_S_nth; assumption. Qed.

  Lemma grow_rel s l : Rel s l ->
    let s' := grow zero s in
    content (top s' :: downs s') = l /\ size s' = length l /\
    curp (top s') < length (elements (top s')) /\ Forall full (downs s') /\
    (forall c, cache s' = Some c -> 0 < length (elements c)).
  Proof.
    intros (H1 & H2 & H3 & H4 & H5 & H6 & H7). unfold grow, grownode.
    destruct (Nat.eqb_spec (curp (top s)) (length (elements (top s)))) as [E|E].
    - simpl. split; [|split; [|split; [|split]]].
      + rewrite <- H1. destruct (cache s); unfold used; simpl; reflexivity.
      + assumption.
      + destruct (cache s) as [c|] eqn:Ec; simpl; [apply (H7 c eq_refl)|].
        rewrite repeat_length.
        assert (0 < size s). { rewrite H2, <- H1. simpl. rewrite app_length, rev_length. unfold used. rewrite firstn_length. lia. }
        destruct (Nat.leb_spec (size s) 256); lia.
      + constructor; [split; lia|assumption].
      + discriminate.
    - repeat split; auto; lia.
  Qed.

  Lemma fill_block_ok els i : forall (pre post : list A), i <= length els -> i <= length pre ->
    fill_block (pre ++ post) (length pre) els i =
      Some (firstn (length pre - i) pre ++ firstn i els ++ post, length pre - i).
  Proof.
    induction i as [|i IH]; intros pre post H1 H2.
    - simpl. rewrite Nat.sub_0_r, firstn_all. reflexivity.
    - simpl. destruct (nth_error_lt_ex els i) as [v Hv]; [lia|]. rewrite Hv.
      destruct (rev pre) as [|z p] eqn:E.
      + apply (f_equal (@length A)) in E. rewrite rev_length in E; simpl in E; lia.
      + assert (pre = rev p ++ [z]) as -> by (rewrite <- (rev_involutive pre), E; reflexivity).
        rewrite app_length in *; simpl in *. replace (length (rev p) + 1) with (S (length (rev p))) by lia.
        cbv iota.
        rewrite <- app_assoc; simpl. rewrite list_set_app_r by lia. rewrite Nat.sub_diag. simpl.
        rewrite IH by lia. f_equal. f_equal.
        replace (S (length (rev p)) - S i) with (length (rev p) - i) by lia.
        rewrite (firstn_app _ (rev p)). replace (length (rev p) - i - length (rev p)) with 0 by lia.
        simpl. rewrite app_nil_r. f_equal.
        replace (match els with [] => [] | a :: l => a :: firstn i l end) with (firstn (S i) els) by reflexivity.
        rewrite (firstn_S_nth _ _ _ Hv), <- app_assoc. reflexivity.
  Qed.
  Lemma fill_ok bs : forall (pre post : list A),
    Forall (fun b => curp b <= length (elements b)) bs ->
    length pre = length (content bs) ->
    fill (pre ++ post) (length pre) bs = Some (rev (content bs) ++ post).
  Proof.
    induction bs as [|b bs IH]; intros pre post Hb Hl; simpl in *.
    - destruct pre; [reflexivity|discriminate].
    - inversion Hb; subst. rewrite app_length, rev_length in Hl. unfold used in Hl at 1. rewrite firstn_length in Hl.
      rewrite fill_block_ok by lia.
      replace (length pre - curp b) with (length (firstn (length pre - curp b) pre)) at 2 by (rewrite firstn_length; lia).
      rewrite IH; [|assumption|rewrite firstn_length; lia].
      rewrite rev_app_distr, rev_involutive, <- app_assoc. reflexivity.
  Qed.

  Lemma nil_of_size s l : Rel s l -> size s = 0 -> l = [].
  Proof. intros (_ & H & _) E. destruct l; [reflexivity|simpl in *; lia]. Qed.

  Lemma top_of s l : Rel s l -> size s <> 0 ->
    exists c x, curp (top s) = S c /\ nth_error (elements (top s)) c = Some x /\
      l = x :: rev (firstn c (elements (top s))) ++ content (downs s).
  Proof.
    intros (H1 & H2 & H3 & H4 & H5 & H6 & H7) E.
    destruct (curp (top s)) as [|c] eqn:Ec.
    - assert (downs s = []) as Hd. { destruct (downs s); [reflexivity|]. assert (0 < 0) by (apply H5; discriminate). lia. }
      simpl in H1. rewrite Hd in H1. unfold used in H1. rewrite Ec in H1. simpl in H1. subst l. simpl in H2. lia.
    - destruct (nth_error_lt_ex (elements (top s)) c) as [x Hx]; [lia|].
      exists c, x. repeat split; auto. rewrite <- H1. cbn [content]. rewrite (used_snoc _ _ _ Ec Hx), rev_app_distr. reflexivity.
  Qed.

  Lemma sim s l o : Rel s l ->
    exists s', step zero s o = Some (s', snd (stack_spec l o)) /\ Rel s' (fst (stack_spec l o)).
  Proof.
    intros HR. pose proof HR as (H1 & H2 & H3 & H4 & H5 & H6 & H7).
    destruct o; cbn [step stack_spec fst snd].
    - destruct (grow_rel s l HR) as (G1 & G2 & G3 & G4 & G5). unfold push.
      set (s' := grow zero s) in *. destruct (Nat.ltb_spec (curp (top s')) (length (elements (top s')))); [|lia].
      eexists; split; [reflexivity|]. unfold Rel; cbn [top downs cache size elements curp].
      rewrite list_set_length. repeat split; auto; try lia.
      + rewrite <- G1. cbn [content].
        rewrite (used_snoc _ (curp (top s')) v) by (cbn; auto using nth_error_list_set_eq).
        cbn [elements]. rewrite firstn_list_set_ge by lia. rewrite rev_app_distr. reflexivity.
      + simpl; lia.
    - unfold pop. destruct (Nat.eqb_spec (size s) 0) as [E|E].
      + assert (El : l = []) by (eapply nil_of_size; eassumption); clear H1; subst l. eexists; split; [reflexivity|]. assumption.
      + destruct (top_of _ _ HR E) as (c & x & Hc & Hx & Hl). clear H1. subst l. simpl hd_error. simpl tl.
        rewrite Hc.
        destruct (downs s) as [|d ds] eqn:Ed.
        * rewrite Hx. eexists; split; [reflexivity|]. unfold Rel; cbn. repeat split; auto; try lia.
          { simpl in H2. rewrite app_length in *. simpl in *. lia. } { intros []; reflexivity. }
        * destruct c as [|c].
          -- rewrite Hx. eexists; split; [reflexivity|]. inversion H6 as [|? ? [F1 F2] F3]; subst.
             unfold Rel; cbn [top downs cache size]. repeat split; auto; try lia.
             { simpl in H2. simpl. lia. }
             intros c' Hc'. injection Hc' as <-. assumption.
          -- rewrite Hx. eexists; split; [reflexivity|]. unfold Rel; cbn [top downs cache size elements curp].
             repeat split; auto; try lia. cbn [length] in H2. lia.
    - unfold peek. destruct (Nat.eqb_spec (size s) 0) as [E|E].
      + assert (El : l = []) by (eapply nil_of_size; eassumption); clear H1; subst l. eexists; split; [reflexivity|]. assumption.
      + destruct (top_of _ _ HR E) as (c & x & Hc & Hx & Hl). rewrite Hc, Hx.
        eexists; split; [|exact HR]. rewrite Hl. reflexivity.
    - eexists; split; [reflexivity|]. unfold Rel; cbn. repeat split; auto; try lia. intros []; reflexivity.
    - eexists; split; [|exact HR]. rewrite H2. destruct l; reflexivity.
    - eexists; split; [|exact HR]. now rewrite H2.
    - eexists; split; [|exact HR]. unfold values.
      pose proof (fill_ok (top s :: downs s) (repeat zero (size s)) []) as Hf.
      rewrite repeat_length, !app_nil_r in Hf. rewrite Hf.
      + simpl. rewrite <- H1. reflexivity.
      + constructor; [assumption|]. eapply Forall_impl; [|exact H6]. intros b [? ?]; lia.
      + rewrite H1. assumption.
  Qed.
  Lemma init_rel cap : 0 < cap -> Rel (new_with_cap zero cap) [].
  Proof.
    intros H. unfold Rel; cbn. rewrite repeat_length. repeat split; auto; try lia.
    - intros []; reflexivity.
    - discriminate.
  Qed.
  Lemma run_correct cap ops : 0 < cap -> run (step zero) (new_with_cap zero cap) ops = Some (srun stack_spec [] ops).
  Proof. intros H. apply (sim_run _ _ Rel sim). apply init_rel; assumption. Qed.
  Lemma run_correct_new ops : run (step zero) (new zero) ops = Some (srun stack_spec [] ops).
  Proof. apply (run_correct 8); lia. Qed.
  Lemma cap0_panics v : push zero (new_with_cap zero 0) v = None.
  Proof. reflexivity. Qed.
End P.
End SegStackP.

Lemma seg_cap0_panics : exists cap : nat, forall (A : Type) (zero v : A) ops,
  run (SegStack.step zero) (SegStack.new_with_cap zero cap) (Push v :: ops) = None.
Proof. exists 0. reflexivity. Qed.
