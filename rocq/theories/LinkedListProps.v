(** C15 (linked list part), C16, C17: the linked list and its iterators. *)
From Verif Require Import Base Bind Machine DLL DLLSeg CompareModel CompareSpec CompareProofs ArrayListSpec
  LinkedListSpec LinkedListModel LinkedListProofs LinkedListIter.

(** C16.  Any sequence of list operations answers as the sequence does; nothing panics. *)
Theorem C16_linkedlist_sequence : forall (A : Type) (zero : A) (ops : list (ll_op A)),
  exists l, new zero = Some l /\ run step l ops = Some (srun ll_spec [] ops).
Proof.
  intros A zero ops. destruct (new_ok zero) as (l & E & HR). exists l. split; [assumption|].
  apply (sim_run _ _ (fun l (t : list A) => exists L n, RelL l L n /\ map snd L = t)); [|exists [], 2; auto].
  clear l E HR. intros l t o (L & n & HR & <-).
  destruct (step_ok l (CS L n (fun _ => 1)) o HR) as (l' & E & HR' & _).
  destruct (list_step_spec (CS L n (fun _ => 1)) o) as [E1 E2]. cbn [cells] in E1, E2.
  exists l'. rewrite E, E2. split; [reflexivity|]. eexists _, _. split; [exact HR'|exact E1].
Qed.
Print Assumptions C16_linkedlist_sequence.
Example C16_case : (l <- new 0 ;; run step l [LPush 1; LPushFront [2; 3]; LPushBack [4; 5]; LValues; LIndex 4; LIndex 5;
    LPopBack; LPopFront; LTraverse (fun x => negb (x =? 1)); LSize; LClear; LPopBack; LEmpty]) =
  Some [LUnit; LUnit; LUnit; LList [3; 2; 1; 4; 5]; LVal (Some 5); LVal None; LVal (Some 5); LVal (Some 3);
        LList [2; 1]; LNat 3; LUnit; LVal None; LBool true].
Proof. reflexivity. Qed.

(** The two chains of a list: its nodes, from the head sentinel to the tail sentinel, are all different, [size]+2 in
    number, and each one's next is the following one whose prev leads back; no node lies outside at either end. *)
Definition both_ways {A} (l : llist (A:=A)) (vs : list A) : Prop :=
  exists first mid final, NoDup (first :: mid ++ [final]) /\ head l = Some first /\ tail l = Some final /\
    length mid = size l /\
    (forall ns1 a b ns2, first :: mid ++ [final] = ns1 ++ a :: b :: ns2 ->
       get_next (hp l) (Some a) = Some (Some b) /\ get_prev (hp l) (Some b) = Some (Some a)) /\
    get_prev (hp l) (Some first) = Some None /\ get_next (hp l) (Some final) = Some None /\
    map (fun a => option_map nval (deref (hp l) (Some a))) mid = map Some vs.

Lemma both_ways_rel {A} (l : llist (A:=A)) L n : RelL l L n -> both_ways l (map snd L).
Proof.
  intros HR. pose proof HR as (Eh & Et & Es & En & vh & vt & Hn & Hc). exists 0, (map fst L), 1.
  assert (Ef : 0 :: map fst L ++ [1] = map fst (full vh L vt)) by (unfold full; cbn [map fst]; now rewrite map_app).
  rewrite Ef. split; [assumption|]. split; [assumption|]. split; [assumption|].
  split; [rewrite map_length; congruence|]. split.
  - intros ns1 a b ns2 E. split.
    + eapply chain_next; [exact Hc|]. rewrite E in *. apply split_follows. apply NoDup_remove_2 in Hn. rewrite in_app_iff in Hn. tauto.
    + eapply chain_prev; [exact Hc|]. rewrite E in *. rewrite rev_app_distr. cbn [rev]. rewrite <- !app_assoc. cbn [app].
      apply split_follows. rewrite <- in_rev. change (a :: b :: ns2) with ([a] ++ b :: ns2) in Hn. rewrite app_assoc in Hn.
      apply NoDup_remove_2 in Hn. rewrite in_app_iff in Hn. tauto.
  - split; [|split].
    + destruct Hc as [Hc _]. unfold get_prev. cbn [deref]. now rewrite Hc.
    + change (full vh L vt) with (((0, vh) :: L) ++ [(1, vt)]) in Hc. apply chain_app in Hc as [_ Hc].
      rewrite (get_next_one _ _ _ _ _ Hc). reflexivity.
    + rewrite map_map, map_map. apply map_ext_in. intros [a v] Hin. apply in_split in Hin as (L1 & L2 & ->).
      destruct (node_at _ _ _ _ _ _ HR) as (nd & E & <-). cbn [fst snd]. now rewrite E.
Qed.

Theorem C16_linkedlist_chains : forall (A : Type) (zero : A) (ops : list (ll_op A)) l0 l,
  new zero = Some l0 -> reach step l0 ops = Some l -> both_ways l (sreach ll_spec [] ops).
Proof.
  intros A zero ops l0 l E0 Er. destruct (new_ok zero) as (l' & E & HR). assert (l' = l0) by congruence. subst l'.
  destruct (sim_reach step ll_spec (fun l (t : list A) => exists L n, RelL l L n /\ map snd L = t)) with (ops := ops) (s := l0) (t := @nil A)
    as (l' & Er' & L & n & HR' & <-).
  - clear. intros l t o (L & n & HR & <-).
    destruct (step_ok l (CS L n (fun _ => 1)) o HR) as (l' & E & HR' & _).
    destruct (list_step_spec (CS L n (fun _ => 1)) o) as [E1 E2]. cbn [cells] in E1, E2.
    exists l'. rewrite E, E2. split; [reflexivity|]. eexists _, _. split; [exact HR'|exact E1].
  - exists [], 2. auto.
  - assert (l' = l) by congruence. subst l'. eapply both_ways_rel; exact HR'.
Qed.
Print Assumptions C16_linkedlist_chains.

(** C17.  A sequence of list operations and iterator actions, by any number of iterators of both kinds on one list:
    whenever the cursor specification is defined on it (no stale or missing iterator is used, ...) the code answers
    exactly as the specification; in particular the list operations in between see the edited sequence. *)
Lemma run_sim {S T O R} (f : S -> O -> option (S * R)) (g : T -> O -> option (T * R)) (Rel : S -> T -> Prop)
  (H : forall s t t' o r, Rel s t -> g t o = Some (t', r) -> exists s', f s o = Some (s', r) /\ Rel s' t') ops :
  forall s t rs, Rel s t -> run g t ops = Some rs ->
  run f s ops = Some rs /\ exists s' t', reach f s ops = Some s' /\ reach g t ops = Some t' /\ Rel s' t'.
Proof.
  induction ops as [|o ops IH]; intros s t rs HR E; cbn [run reach] in *; [injection E as <-; eauto 10|].
  destruct (g t o) as [[t' r]|] eqn:Eg; [|discriminate]. destruct (H _ _ _ _ _ HR Eg) as (s' & -> & HR').
  destruct (run g t' ops) as [rs'|] eqn:Er; [|discriminate]. cbn [option_map] in E. injection E as <-.
  destruct (IH _ _ _ HR' Er) as (-> & Hr). split; [reflexivity|]. exact Hr.
Qed.

Theorem C17_iterators_are_cursors : forall (A : Type) (zero : A) (ops : list (c_op A)) rs,
  run c_spec cnew ops = Some rs ->
  exists s, sys_new zero = Some s /\ run sys_step s ops = Some rs.
Proof.
  intros A zero ops rs H. destruct (sys_new_ok zero) as (s & E & HR). exists s. split; [assumption|].
  eapply run_sim; [|exact HR|exact H]. intros s0 t t' o r. apply sys_step_ok.
Qed.
Print Assumptions C17_iterators_are_cursors.

(** ... and the chains stay consistent and the size right. *)
Theorem C17_iterators_keep_chains : forall (A : Type) (zero : A) (ops : list (c_op A)) t s0 s,
  reach c_spec cnew ops = Some t -> sys_new zero = Some s0 -> reach sys_step s0 ops = Some s ->
  both_ways (lst s) (map snd (cells t)) /\ size (lst s) = length (cells t).
Proof.
  intros A zero ops t s0 s Ht E0 Es. destruct (sys_new_ok zero) as (s' & E & HR). assert (s' = s0) by congruence. subst s'.
  assert (Hrun : exists rs, run c_spec cnew ops = Some rs).
  { clear - Ht. revert Ht. generalize (@cnew A). induction ops as [|o ops IH]; intros c Ht; cbn [run reach] in *; [eauto|].
    destruct (c_spec c o) as [[c' r]|]; [|discriminate]. destruct (IH _ Ht) as (rs & ->). cbn. eauto. }
  destruct Hrun as (rs & Hrun).
  destruct (run_sim sys_step c_spec Rel (fun s0 t t' o r => sys_step_ok s0 t t' o r) ops s0 cnew rs HR Hrun)
    as (_ & s1 & t1 & E1 & E2 & [HR' _]).
  assert (s1 = s) by congruence. assert (t1 = t) by congruence. subst s1 t1.
  split; [eapply both_ways_rel; exact HR'|apply HR'].
Qed.
Print Assumptions C17_iterators_keep_chains.

(** Two iterators, edits at adjacent and distant cells, removal, insertion around the ends. *)
Definition session : list (c_op nat) :=
  [OnList (LPushBack [10; 20; 30; 40]); OnIter 0 false INew; OnIter 1 false INew; OnIter 1 false INext;
   OnIter 0 false (IMoveAfter 1); OnList LValues; OnIter 1 false (ISwap 0); OnList LValues;
   OnIter 0 false (IInsertBefore [7; 8]); OnIter 1 true (IMove (-1)); OnIter 1 true IValue; OnIter 1 true (IMoveBefore 0);
   OnList LValues; OnIter 0 false IRemoveToNext; OnIter 0 false IValue; OnIter 0 false IToTail; OnIter 0 false INext;
   OnIter 0 false IValid; OnIter 0 false (IInsertBefore [99]); OnIter 1 true IRemoveToPrev; OnIter 1 true IValue; OnList LValues].
Definition session_results : list (ll_out nat) :=
  [LUnit; LUnit; LUnit; LUnit; LUnit; LList [20; 10; 30; 40]; LUnit; LList [10; 20; 30; 40]; LUnit; LUnit;
   LVal (Some 40); LUnit; LList [10; 7; 8; 40; 20; 30]; LUnit; LVal (Some 30); LUnit; LUnit; LBool false; LUnit; LUnit;
   LVal (Some 8); LList [10; 7; 8; 30; 99]].
Example C17_case : run c_spec cnew session = Some session_results.
Proof. reflexivity. Qed.
Example C17_case_code : (s <- sys_new 0 ;; run sys_step s session) = Some session_results.
Proof. reflexivity. Qed.

(** C15, linked list: as for the array list. *)
Theorem C15_linkedlist_contains_partial : forall (A : Type) (zero : A) (ops : list (ll_op A)) l0 l comp (lt : A -> A -> Prop) eqb vs,
  new zero = Some l0 -> reach step l0 ops = Some l -> decides_ex lt comp -> (forall a b, eqb a b = true <-> a = b) ->
  contains comp l vs = Some (count_equal eqb (sreach ll_spec [] ops) vs).
Proof.
  intros A zero ops l0 l comp lt eqb vs E0 Er Hd He. destruct (new_ok zero) as (l' & E & HR).
  assert (l' = l0) by congruence. subst l'.
  destruct (sim_reach step ll_spec (fun l (t : list A) => exists L n, RelL l L n /\ map snd L = t)) with (ops := ops) (s := l0) (t := @nil A)
    as (l' & Er' & L & n & HR' & <-).
  - clear. intros l t o (L & n & HR & <-).
    destruct (step_ok l (CS L n (fun _ => 1)) o HR) as (l' & E & HR' & _).
    destruct (list_step_spec (CS L n (fun _ => 1)) o) as [E1 E2]. cbn [cells] in E1, E2.
    exists l'. rewrite E, E2. split; [reflexivity|]. eexists _, _. split; [exact HR'|exact E1].
  - exists [], 2. auto.
  - assert (l' = l) by congruence. subst l'. unfold contains. rewrite (traverse_ok _ _ _ _ HR'), shown_all. f_equal.
    assert (Hin : forall x ws n, fold_left (fun c sv => if (comp x sv =? -1)%Z then c + 1 else c) ws n = n + length (filter (eqb x) ws)).
    { intros x ws. induction ws as [|w ws IHw]; intros k; cbn [fold_left filter]; [simpl; lia|]. rewrite IHw.
      destruct (Z.eqb_spec (comp x w) (-1)) as [E1|E1]; destruct (eqb x w) eqn:Eb; simpl; try lia; exfalso.
      - apply (proj1 (Hd x w)) in E1. apply He in E1. congruence.
      - apply He in Eb. apply (proj1 (Hd x w)) in Eb. congruence. }
    unfold count_equal. generalize (map snd L) as els. clear - Hin. intros els.
    enough (G : forall k, fold_left (fun count x => fold_left (fun c v => if (comp x v =? -1)%Z then c + 1 else c) vs count) els k =
      k + list_sum (map (fun x => length (filter (eqb x) vs)) els)) by (rewrite G; reflexivity).
    induction els as [|x els IH]; intros k; cbn [fold_left map]; [simpl; lia|]. rewrite IH, Hin. simpl. lia.
Qed.
Print Assumptions C15_linkedlist_contains_partial.
Theorem C15_linkedlist_plain_refuted :
  exists l0 l, new 0%Z = Some l0 /\ reach step l0 [LPushBack [1; 2]%Z] = Some l /\
    contains any l [1%Z] = Some 0 /\ contains any l [2%Z] = Some 1 /\ contains any l [3%Z] = Some 2.
Proof. do 2 eexists. repeat (split; [vm_compute; reflexivity|]). vm_compute; reflexivity. Qed.
Print Assumptions C15_linkedlist_plain_refuted.
