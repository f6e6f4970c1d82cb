(** Linked-list iterators whose element has been taken out of the list. *)
From Verif Require Import Base Bind Machine DLL LinkedListSpec LinkedListModel LinkedListProofs LinkedListIter LinkedListProps
  LinkedListStaleSpec LinkedListStaleProofs.

Lemma dnew_ok {A} (zero : A) : exists s, sys_new zero = Some s /\ DRel s dnew.
Proof.
  destruct (sys_new_ok zero) as (s & E & HR). exists s. split; [assumption|]. split; [exact HR|].
  split; [constructor|]. split; [intros x []|intros c v []].
Qed.
Lemma dreach {A} (zero : A) ops d s0 s : reach d_spec dnew ops = Some d -> sys_new zero = Some s0 -> reach sys_step s0 ops = Some s ->
  DRel s d.
Proof.
  intros Ht E0 Es. destruct (dnew_ok zero) as (s' & E & HR). assert (s' = s0) by congruence. subst s'. clear E E0.
  revert s0 HR Es Ht. generalize (@dnew A). induction ops as [|o ops IH]; intros d0 s0 HR Es Ht; cbn [reach] in *; [congruence|].
  destruct (d_spec d0 o) as [[d1 r]|] eqn:Ed; [|discriminate]. destruct (d_step_ok _ _ _ _ _ HR Ed) as (s1 & E1 & HR1).
  rewrite E1 in Es. eapply IH; eassumption.
Qed.

(** Any interleaving of list operations and iterator calls, with iterators left on elements that were popped, cleared or
    removed: Value, SetValue, Swap and Valid on these answer for the element that is out and never touch the list's other
    elements, and every later answer of the list and of every other iterator is as in the specification. *)
Theorem C85_stale_iterators_partial : forall (A : Type) (zero : A) (ops : list (c_op A)) rs,
  run d_spec dnew ops = Some rs ->
  exists s, sys_new zero = Some s /\ run sys_step s ops = Some rs.
Proof.
  intros A zero ops rs H. destruct (dnew_ok zero) as (s & E & HR). exists s. split; [assumption|].
  eapply run_sim; [|exact HR|exact H]. intros s0 t t' o r. apply d_step_ok.
Qed.
Print Assumptions C85_stale_iterators_partial.

(** ... and the list's two chains and its Size stay right. *)
Theorem C85_stale_chains_partial : forall (A : Type) (zero : A) (ops : list (c_op A)) d s0 s,
  reach d_spec dnew ops = Some d -> sys_new zero = Some s0 -> reach sys_step s0 ops = Some s ->
  both_ways (lst s) (map snd (cells (base d))) /\ size (lst s) = length (cells (base d)).
Proof.
  intros A zero ops d s0 s Ht E0 Es. destruct (dreach _ _ _ _ _ Ht E0 Es) as ([HR _] & _).
  split; [|apply HR]. eapply both_ways_rel; exact HR.
Qed.
Print Assumptions C85_stale_chains_partial.

(** ** What a removed iterator cannot do *)
Lemma build_same {A} (vs : list A) h0 h e h' e' a : build vs h (Some e) = Some (h', e') -> length h0 <= e -> length h0 <= length h ->
  (forall b, b < length h0 -> nth_error h b = nth_error h0 b) -> a < length h0 -> nth_error h' a = nth_error h0 a.
Proof.
  revert h e. induction vs as [|v vs IH]; intros h e H He Hl Hs Ha; cbn [build] in H; [injection H as <- _; auto|].
  cbn [alloc] in H. destruct (set_next _ _ _) as [h1|] eqn:E1; [|discriminate]. destruct (set_prev _ _ _) as [h2|] eqn:E2; [|discriminate].
  assert (F1 : forall b, b < length h0 -> nth_error h1 b = nth_error h0 b /\ length h1 = length h + 1).
  { intros b Hb. unfold set_next, store in E1. cbn [deref] in E1. destruct (nth_error _ e); [|discriminate].
    destruct (e <? _); [|discriminate]. injection E1 as <-. rewrite list_set_length, app_length. cbn [length].
    rewrite nth_error_list_set_neq by lia. rewrite nth_error_app1 by lia. auto. }
  eapply IH; [exact H|lia| | |assumption].
  - unfold set_prev, store in E2. cbn [deref] in E2. destruct (nth_error _ (length h)); [|discriminate].
    destruct (_ <? _); [|discriminate]. injection E2 as <-. rewrite list_set_length. destruct (F1 a Ha). lia.
  - intros b Hb. unfold set_prev, store in E2. cbn [deref] in E2. destruct (nth_error _ (length h)); [|discriminate].
    destruct (_ <? _); [|discriminate]. injection E2 as <-. rewrite nth_error_list_set_neq by lia. now apply F1.
Qed.
Lemma set_next_nil {A} (h : heap A) q : set_next h None q = None.
Proof. reflexivity. Qed.
Lemma set_prev_nil {A} (h : heap A) q : set_prev h None q = None.
Proof. reflexivity. Qed.

(** Through an iterator whose element an iterator has removed, removing again, inserting around it, and moving it or moving
    another element next to it all panic; Next and Prev lead nowhere, and there Value panics. *)
Theorem C85_removed_iterators_panic : forall (A : Type) (zero : A) (ops : list (c_op A)) d s0 s i circ,
  reach d_spec dnew ops = Some d -> sys_new zero = Some s0 -> reach sys_step s0 ops = Some s ->
  In (cur (base d) i) (cut d) ->
  sys_step s (OnIter i circ IRemoveToNext) = None /\
  sys_step s (OnIter i circ IRemoveToPrev) = None /\
  (forall vs, sys_step s (OnIter i circ (IInsertBefore vs)) = None) /\
  (forall vs, sys_step s (OnIter i circ (IInsertAfter vs)) = None) /\
  (forall j, In (cur (base d) j) (names (base d)) -> 
     sys_step s (OnIter i circ (IMoveBefore j)) = None /\ sys_step s (OnIter i circ (IMoveAfter j)) = None /\
     sys_step s (OnIter j circ (IMoveBefore i)) = None /\ sys_step s (OnIter j circ (IMoveAfter i)) = None) /\
  (forall a, a = INext \/ a = IPrev ->
     exists s1, sys_step s (OnIter i false a) = Some (s1, LUnit) /\ lst s1 = lst s /\ sys_step s1 (OnIter i circ IValue) = None).
Proof.
  intros A zero ops d s0 s i circ Ht E0 Es Hcut. pose proof (dreach _ _ _ _ _ Ht E0 Es) as HD.
  destruct (cut_node _ _ _ HD Hcut) as (nd & Enth & Ep & En). pose proof HD as ([HRL Hi] & _).
  set (c := cur (base d) i) in *.
  assert (Gp : get_prev (hp (lst s)) (Some c) = Some None) by (unfold get_prev; cbn [deref]; now rewrite Enth, Ep).
  assert (Gn : get_next (hp (lst s)) (Some c) = Some None) by (unfold get_next; cbn [deref]; now rewrite Enth, En).
  assert (Hlt : c < length (hp (lst s))) by (apply nth_error_Some; congruence).
  assert (Hrm : remove (hp (lst s)) (Some c) = None) by (unfold remove; rewrite Gp, Gn; reflexivity).
  assert (Hb : forall vs v h2 e, build vs (hp (lst s) ++ [mk None None v]) (Some (length (hp (lst s)))) = Some (h2, e) ->
    nth_error h2 c = Some nd).
  { intros vs v h2 e H. rewrite <- Enth. eapply build_same; [exact H|lia|rewrite app_length; lia| |assumption].
    intros b Hbl. apply nth_error_app1. assumption. }
  cbn [sys_step]. unfold iter_act. rewrite Hi. fold c.
  split; [unfold removeToNext; rewrite Gn, Hrm; reflexivity|].
  split; [unfold removeToPrev; rewrite Gp, Hrm; reflexivity|].
  split.
  { intros vs. unfold insertBefore. destruct vs as [|v vs]; [reflexivity|]. cbn [alloc].
    destruct (build _ _ _) as [[h2 e]|] eqn:E; [|reflexivity]. apply Hb in E. unfold get_prev. cbn [deref]. rewrite E, Ep.
    reflexivity. }
  split.
  { intros vs. unfold insertAfter. destruct vs as [|v vs]; [reflexivity|]. cbn [alloc].
    destruct (build _ _ _) as [[h2 e]|] eqn:E; [|reflexivity]. apply Hb in E. unfold get_next. cbn [deref]. rewrite E, En.
    destruct (set_next h2 _ _); [|reflexivity]. destruct (set_prev _ _ _); [|reflexivity].
    destruct (set_next _ _ _); reflexivity. }
  split.
  { intros j Hj. rewrite Hi. set (m := cur (base d) j) in *.
    assert (Hc : ~ In c (names (base d))).
    { destruct HD as (_ & _ & Hsub & Hd). apply Hsub in Hcut. apply in_map_iff in Hcut as ([x v] & Ex & Hin). cbn [fst] in Ex.
      rewrite <- Ex. apply (Hd _ _ Hin). }
    assert (Hne : c <> m) by congruence.
    pose proof (rel_closed _ _ (proj1 HD)) as Hcl.
    assert (Hm : forall p, get_prev (hp (lst s)) (Some m) = Some p \/ get_next (hp (lst s)) (Some m) = Some p ->
      ptr_eqb p (Some c) = false).
    { intros p H. destruct (ptr_eqb_spec p (Some c)) as [->|]; [|reflexivity]. exfalso.
      unfold get_prev, get_next in H. cbn [deref] in H. destruct (nth_error (hp (lst s)) m) as [nm|] eqn:Em; [|now destruct H].
      destruct (Hcl m nm (or_introl Hj) Em) as [H1 H2]. destruct H as [H|H]; injection H as H; rewrite H in *; cbn [inD] in *.
      - destruct H1 as [H1|H1]; [contradiction|lia].
      - destruct H2 as [H2|H2]; [contradiction|lia]. }
    repeat split.
    - unfold moveBefore. destruct (ptr_eqb_spec (Some c) (Some m)) as [[= E]|_]; [contradiction|].
      destruct (get_prev (hp (lst s)) (Some m)) as [p|] eqn:E; [|reflexivity]. rewrite Hm by auto. rewrite Gp, Gn. reflexivity.
    - unfold moveAfter. destruct (ptr_eqb_spec (Some c) (Some m)) as [[= E]|_]; [contradiction|].
      destruct (get_next (hp (lst s)) (Some m)) as [p|] eqn:E; [|reflexivity]. rewrite Hm by auto. rewrite Gp, Gn. reflexivity.
    - unfold moveBefore. destruct (ptr_eqb_spec (Some m) (Some c)) as [[= E]|_]; [now symmetry in E|].
      rewrite Gp. cbn [ptr_eqb]. destruct (get_prev _ (Some m)) as [p|]; [|reflexivity].
      destruct (get_next _ (Some m)) as [q|]; [|reflexivity]. destruct (set_next _ _ _); [|reflexivity].
      destruct (set_prev _ _ _); reflexivity.
    - unfold moveAfter. destruct (ptr_eqb_spec (Some m) (Some c)) as [[= E]|_]; [now symmetry in E|].
      rewrite Gn. cbn [ptr_eqb]. destruct (get_prev _ (Some m)) as [p|]; [|reflexivity].
      destruct (get_next _ (Some m)) as [q|]; [|reflexivity]. destruct (set_next _ _ _); [|reflexivity].
      destruct (set_prev _ _ _); reflexivity. }
  intros a [->| ->].
  - unfold next. rewrite Gn. eexists; split; [reflexivity|]. split; [reflexivity|]. cbn [its set_it]. rewrite Nat.eqb_refl. reflexivity.
  - unfold prev. rewrite Gp. eexists; split; [reflexivity|]. split; [reflexivity|]. cbn [its set_it]. rewrite Nat.eqb_refl. reflexivity.
Qed.
Print Assumptions C85_removed_iterators_panic.

(** Iterators 0 and 1 on 10; 1 removes it; 0 still reads it, writes it, swaps it with the first element, while the list goes on. *)
Definition stale_session : list (c_op nat) :=
  [OnList (LPushBack [10; 20; 30; 40]); OnIter 0 false INew; OnIter 1 false INew; OnIter 1 false IRemoveToNext;
   OnIter 0 false IValid; OnIter 0 false IValue; OnIter 0 false (ISetValue 11); OnList LValues; OnIter 0 false (ISwap 1);
   OnList LValues; OnIter 0 false IValue; OnIter 2 false IToTail; OnList LPopBack; OnIter 2 false IValue;
   OnIter 2 false (ISwap 0); OnIter 2 false IValue; OnIter 0 false IValue; OnIter 1 false (IInsertBefore [5]); OnList LValues; OnList LSize].
Definition stale_results : list (ll_out nat) :=
  [LUnit; LUnit; LUnit; LUnit; LBool true; LVal (Some 10); LUnit; LList [20; 30; 40]; LUnit; LList [11; 30; 40];
   LVal (Some 20); LUnit; LVal (Some 40); LVal (Some 40); LUnit; LVal (Some 20); LVal (Some 40); LUnit;
   LList [5; 11; 30]; LNat 3].
Example C85_case : run d_spec dnew stale_session = Some stale_results.
Proof. reflexivity. Qed.
Example C85_case_code : (s <- sys_new 0 ;; run sys_step s stale_session) = Some stale_results.
Proof. reflexivity. Qed.
(** the hypotheses of the two theorems on states, and an iterator on a cut cell *)
Example C85_case_state : exists d s0 s, reach d_spec dnew stale_session = Some d /\ sys_new 0 = Some s0 /\
  reach sys_step s0 stale_session = Some s /\ In (cur (base d) 0) (cut d) /\ In (cur (base d) 1) (names (base d)) /\
  map snd (cells (base d)) = [5; 11; 30] /\ map snd (dead d) = [20; 40].
Proof.
  do 3 eexists. split; [vm_compute; reflexivity|]. split; [vm_compute; reflexivity|]. split; [vm_compute; reflexivity|].
  repeat (split; [vm_compute; auto|]). reflexivity.
Qed.

(** For an element that was popped or cleared this is false: its links into the list are still there, and calls through the
    iterator that succeed leave a list whose Size is not the number of its values. *)
Theorem C85_popped_iterators_refuted : exists (ops : list (c_op nat)) s0 s vs,
  sys_new 0 = Some s0 /\ reach sys_step s0 ops = Some s /\ values (lst s) = Some vs /\ size (lst s) <> length vs.
Proof.
  exists [OnList (LPushBack [1; 2; 3]); OnIter 0 false INew; OnList LPopFront; OnIter 0 false (IInsertBefore [9])].
  do 3 eexists. repeat (split; [vm_compute; reflexivity|]). vm_compute. discriminate.
Qed.
Print Assumptions C85_popped_iterators_refuted.
(** Inserting before a popped element brings it back without counting it, inserting after it loses the new value but counts
    it, removing it counts down once more. *)
Example C85_popped_case :
  let at_first := [OnList (LPushBack [1; 2; 3]); OnIter 0 false INew; OnList LPopFront] in
  let after o := s <- sys_new 0 ;; run sys_step s (at_first ++ [OnIter 0 false o; OnList LValues; OnList LSize]) in
  let first3 := [LUnit; LUnit; LVal (Some 1)] in
  after (IInsertBefore [9]) = Some (first3 ++ [LUnit; LList [9; 1; 2; 3]; LNat 3]) /\
  after (IInsertAfter [9]) = Some (first3 ++ [LUnit; LList [2; 3]; LNat 3]) /\
  after IRemoveToNext = Some (first3 ++ [LUnit; LList [2; 3]; LNat 1]).
Proof. vm_compute. auto. Qed.
