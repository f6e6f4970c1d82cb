(** C12-C15 and C55: the array list. *)
From Verif Require Import Base Machine QueueSpec CompareModel CompareSpec CompareProofs ArrayListSpec ArrayListModel ArrayListProofs ArrayListProofs2 ArrayListMem.
Local Open Scope Z_scope.

(** C12.  [limit] is the largest slice that can be allocated.  Every sequence of calls answers exactly as the
    mathematical sequence does until, at some point, an allocation may fail and the process ends; it never panics
    (other than the specified panic of an out-of-range Index or Remove) and never answers wrongly. *)
Theorem C12_arraylist_sequence : forall (A : Type) (zero : A) (limit : Z), 16 <= limit <= 2 ^ 62 ->
  forall ops : list (al_op A), Forall fits ops ->
  exists k, (k <= length ops)%nat /\
    run (step zero limit) (Live (new zero)) ops = Some (firstn k (srun al_spec [] ops) ++ repeat AOom (length ops - k)).
Proof. exact @run_ok. Qed.
Print Assumptions C12_arraylist_sequence.

(** Allocation cannot fail as long as nothing is removed and memory holds eight times what was pushed ... *)
Theorem C12_arraylist_no_oom_growing : forall (A : Type) (zero : A) (limit : Z), 16 <= limit <= 2 ^ 62 ->
  forall ops : list (al_op A), Forall fits ops -> existsb removing ops = false -> 8 * (1 + total_pushed ops) <= limit ->
  run (step zero limit) (Live (new zero)) ops = Some (srun al_spec [] ops).
Proof. exact @grow_run_ok. Qed.
Print Assumptions C12_arraylist_no_oom_growing.

(** ... or, with removals, within logarithmically many calls (C55_memory_refuted shows that this cannot be improved
    to a bound in terms of the contents). *)
Theorem C12_arraylist_no_oom_short : forall (A : Type) (zero : A) (limit : Z), 16 <= limit <= 2 ^ 62 ->
  forall ops : list (al_op A), Forall fits ops -> 8 * (1 + total_pushed ops) * 2 ^ Z.of_nat (length ops) <= limit ->
  run (step zero limit) (Live (new zero)) ops = Some (srun al_spec [] ops).
Proof. exact @any_run_ok. Qed.
Print Assumptions C12_arraylist_no_oom_short.

(** Set with any out-of-range index, negative ones included, panics or leaves the contents alone. *)
Theorem C12_arraylist_set_out_of_range : forall (A : Type) (zero : A) (limit : Z), 16 <= limit <= 2 ^ 62 ->
  forall (ops ops2 : list (al_op A)) l l' idx v, Forall fits ops -> Forall fits ops2 ->
  reach (step zero limit) (Live (new zero)) ops = Some (Live l) ->
  -2 ^ 63 <= idx < 2 ^ 63 -> (idx < 0 \/ Z.of_nat (length (sreach al_spec [] ops)) <= idx) ->
  set_idx l idx v = Ok l' ->
  exists k, (k <= length ops2)%nat /\
    run (step zero limit) (Live l') ops2 = Some (firstn k (srun al_spec (sreach al_spec [] ops) ops2) ++ repeat AOom (length ops2 - k)).
Proof.
  intros A zero limit Hl ops ops2 l l' idx v H1 H2 H3 H4 H5 H6.
  apply run_rel; auto. eapply set_out_rel; eauto. now apply (reach_new zero limit Hl).
Qed.
Print Assumptions C12_arraylist_set_out_of_range.

Definition C12_ops : list (al_op nat) :=
  [APushBack (seq 1 20); APopFront; APushFront [100; 101]%nat; ARemove 3; AIndex 50; AIndex 2; ASet 4 7%nat; ASet 60 1%nat; AValues;
   ATraverse (fun i _ => i <? 3)%nat] ++ repeat APopBack 12 ++ [AValues; AClear; ASize; AFront; APush 5%nat; ABack].
Example C12_case : Forall fits C12_ops /\ 8 * (1 + total_pushed C12_ops) * 2 ^ Z.of_nat (length C12_ops) <= 2 ^ 62.
Proof. split; [|vm_compute; discriminate]. repeat constructor; vm_compute; reflexivity. Qed.
Example C12_case_run : run (step 0%nat (2 ^ 20)) (Live (new 0%nat)) C12_ops = Some (srun al_spec [] C12_ops).
Proof. vm_compute; reflexivity. Qed.
Example C12_case_growing : let ops := [APushBack (seq 1 40); APushFront (seq 1 40); AIndex 3; APush 3%nat] in
  existsb removing ops = false /\ 8 * (1 + total_pushed ops) <= 1000.
Proof. split; [reflexivity|vm_compute; discriminate]. Qed.
Example C12_case_set : match reach (step 0%nat 1000) (Live (new 0%nat)) [APush 1%nat] with
  Some (Live l) => match set_idx l (-1) 9%nat with Ok l' => values 0%nat 1000 l' = Ok [1%nat] | _ => False end | _ => False end.
Proof. vm_compute; reflexivity. Qed.

(** C13: iterator walks over every reachable list. *)
Theorem C13_arraylist_iterator : forall (A : Type) (zero : A) (limit : Z), 16 <= limit <= 2 ^ 62 ->
  forall (ops : list (al_op A)) l fuel, Forall fits ops ->
  reach (step zero limit) (Live (new zero)) ops = Some (Live l) -> (length (sreach al_spec [] ops) <= fuel)%nat ->
  walk fuel it_next (it_head (iterator l)) = Ok (sreach al_spec [] ops) /\
  walk fuel it_prev (it_tail (iterator l)) = Ok (rev (sreach al_spec [] ops)).
Proof.
  intros A zero limit Hl ops l fuel H1 H2 H3. pose proof (reach_new zero limit Hl ops l H1 H2).
  split; [eapply walk_forward_ok|eapply walk_backward_ok]; eauto.
Qed.
Print Assumptions C13_arraylist_iterator.

(** The circular iterator started on the head (tail) reads, after n moves, position n modulo the length from that end,
    for any number of moves. *)
Theorem C13_arraylist_circular : forall (A : Type) (zero : A) (limit : Z), 16 <= limit <= 2 ^ 62 ->
  forall (ops : list (al_op A)) l n, Forall fits ops ->
  reach (step zero limit) (Live (new zero)) ops = Some (Live l) -> let c := sreach al_spec [] ops in c <> [] ->
  take_walk n ci_next (it_head (iterator l)) = Ok (map (fun k => nth (k mod length c) c zero) (seq 0 n)) /\
  take_walk n ci_prev (it_tail (iterator l)) = Ok (map (fun k => nth (k mod length c) (rev c) zero) (seq 0 n)).
Proof.
  intros A zero limit Hl ops l n H1 H2 c H3. pose proof (reach_new zero limit Hl ops l H1 H2) as HR. fold c in HR.
  assert (Hp : (0 < length c)%nat) by (destruct c; [congruence|simpl; lia]).
  split.
  - exact (circ_next zero limit Hl l c HR n 0 Hp).
  - unfold it_tail, iterator; cbn [al]. pose proof (rel_bound limit Hl l c HR) as [Hb Hs]. rewrite Hs, u_small by lia.
    replace (Z.of_nat (length c) - 1) with (Z.of_nat (length c - 1)) by lia.
    rewrite (circ_prev zero limit Hl l c HR n (length c - 1)) by lia. rewrite Nat.sub_diag. reflexivity.
Qed.
Print Assumptions C13_arraylist_circular.

Example C13_case : match reach (step 0%nat 1000) (Live (new 0%nat)) [APushBack (seq 1 12); APushFront [7; 8]%nat; ARemove 5] with
  Some (Live l) => take_walk 15 ci_next (it_head (iterator l)) = Ok [8; 7; 1; 2; 3; 5; 6; 7; 8; 9; 10; 11; 12; 8; 7]%nat | _ => False end.
Proof. vm_compute; reflexivity. Qed.

(** C14 as stated is false at the ends: removing the last element with RemoveToNext moves an ordinary iterator backwards,
    and leaves a circular one invalid on a non-empty list; symmetrically for RemoveToPrev on the first element. *)
Theorem C14_remove_at_ends_refuted :
  exists (l : alist) it1 it2 it3 it4,
    reach (step 0%nat (2 ^ 20)) (Live (new 0%nat)) [APushBack [1; 2; 3]%nat] = Some (Live l) /\
    it_remove_next 0%nat (2 ^ 20) {| al := l; cur := 2 |} = Ok it1 /\ it_value it1 = Ok 2%nat /\
    it_remove_prev 0%nat (2 ^ 20) {| al := l; cur := 0 |} = Ok it2 /\ it_value it2 = Ok 2%nat /\
    ci_remove_next 0%nat (2 ^ 20) {| al := l; cur := 2 |} = Ok it3 /\ it_valid it3 = false /\ size (al it3) = 2 /\
    ci_remove_prev 0%nat (2 ^ 20) {| al := l; cur := 0 |} = Ok it4 /\ it_valid it4 = false /\ size (al it4) = 2.
Proof. do 5 eexists. repeat (split; [vm_compute; reflexivity|]). vm_compute; reflexivity. Qed.
Print Assumptions C14_remove_at_ends_refuted.

(** What holds of C14, at every position: exactly the current element goes (the later calls on the list answer as on the
    sequence without it), and the iterator's position afterwards is as listed; in the middle of the list that is the
    neighbour the method names. *)
Theorem C14_remove_partial : forall (A : Type) (zero : A) (limit : Z), 16 <= limit <= 2 ^ 62 ->
  forall (ops : list (al_op A)) l i, Forall fits ops ->
  reach (step zero limit) (Live (new zero)) ops = Some (Live l) -> let c := sreach al_spec [] ops in (i < length c)%nat ->
  forall rm next_pos,
    In (rm, next_pos)
      [ (it_remove_next zero limit, if (S i <? length c)%nat then Z.of_nat i else if (i =? 0)%nat then 2 ^ 64 - 1 else Z.of_nat i - 1);
        (it_remove_prev zero limit, if (i =? 0)%nat then 0 else Z.of_nat i - 1);
        (ci_remove_next zero limit, Z.of_nat i);
        (ci_remove_prev zero limit, if (i =? 0)%nat then 2 ^ 64 - 1 else Z.of_nat i - 1) ] ->
  exists it', rm {| al := l; cur := Z.of_nat i |} = Ok it' /\ cur it' = next_pos /\
    forall ops2, Forall fits ops2 -> exists k, (k <= length ops2)%nat /\
      run (step zero limit) (Live (al it')) ops2 =
        Some (firstn k (srun al_spec (delete_at i c) ops2) ++ repeat AOom (length ops2 - k)).
Proof.
  intros A zero limit Hl ops l i H1 H2 c Hi rm np Hin. pose proof (reach_new zero limit Hl ops l H1 H2) as HR. fold c in HR.
  pose proof (rel_bound limit Hl l c HR) as [Hb Hs].
  assert (Hu : u (Z.of_nat i - 1) = if (i =? 0)%nat then 2 ^ 64 - 1 else Z.of_nat i - 1).
  { destruct i; [reflexivity|]. rewrite u_small by lia. reflexivity. }
  assert (G : exists it', rm {| al := l; cur := Z.of_nat i |} = Ok it' /\ Rel limit (al it') (delete_at i c) /\ cur it' = np).
  { destruct Hin as [E|[E|[E|[E|[]]]]]; injection E as <- <-.
    - destruct (it_remove_next_ok zero limit Hl l c i HR Hi) as (it' & ? & ? & Ec). exists it'. rewrite Hu in Ec. auto.
    - destruct (it_remove_prev_ok zero limit Hl l c i HR Hi) as (it' & ? & ? & Ec). exists it'. split; [auto|]. split; [auto|].
      rewrite Ec. destruct i; [reflexivity|]. simpl Nat.eqb. cbv iota. lia.
    - destruct (ci_remove_next_ok zero limit Hl l c i HR Hi) as (it' & ? & ? & Ec). exists it'. auto.
    - destruct (ci_remove_prev_ok zero limit Hl l c i HR Hi) as (it' & ? & ? & Ec). exists it'. rewrite Hu in Ec. auto. }
  destruct G as (it' & E & HR' & Ec). exists it'. split; [assumption|]. split; [assumption|].
  intros ops2 Hf. now apply run_rel.
Qed.
Print Assumptions C14_remove_partial.
Example C14_case : match reach (step 0%nat 1000) (Live (new 0%nat)) [APushBack [1; 2; 3; 4]%nat] with
  Some (Live l) => match it_remove_next 0%nat 1000 {| al := l; cur := 1 |}, it_remove_prev 0%nat 1000 {| al := l; cur := 1 |} with
    Ok a, Ok b => it_value a = Ok 3%nat /\ it_value b = Ok 1%nat /\ values 0%nat 1000 (al a) = Ok [1; 3; 4]%nat | _, _ => False end | _ => False end.
Proof. vm_compute; auto. Qed.

(** Writing through iterators: SetValue and Swap. *)
Theorem C14_set_swap_partial : forall (A : Type) (zero : A) (limit : Z), 16 <= limit <= 2 ^ 62 ->
  forall (ops ops2 : list (al_op A)) l i j x y v, Forall fits ops -> Forall fits ops2 ->
  reach (step zero limit) (Live (new zero)) ops = Some (Live l) -> let c := sreach al_spec [] ops in
  nth_error c i = Some x -> nth_error c j = Some y ->
  (exists l', it_set {| al := l; cur := Z.of_nat i |} v = Ok l' /\ exists k, (k <= length ops2)%nat /\
     run (step zero limit) (Live l') ops2 = Some (firstn k (srun al_spec (update_at i v c) ops2) ++ repeat AOom (length ops2 - k))) /\
  (exists l', it_swap {| al := l; cur := Z.of_nat i |} {| al := l; cur := Z.of_nat j |} = Ok l' /\ exists k, (k <= length ops2)%nat /\
     run (step zero limit) (Live l') ops2 =
       Some (firstn k (srun al_spec (update_at j x (update_at i y c)) ops2) ++ repeat AOom (length ops2 - k))).
Proof.
  intros A zero limit Hl ops ops2 l i j x y v H1 H1' H2 c Hx Hy. pose proof (reach_new zero limit Hl ops l H1 H2) as HR. fold c in HR.
  split.
  - destruct (it_set_ok limit Hl l c i v HR) as (l' & E & HR'); [apply nth_error_Some; congruence|].
    exists l'. split; [assumption|]. now apply run_rel.
  - destruct (it_swap_ok limit Hl l c i j x y HR Hx Hy) as (l' & E & HR'). exists l'. split; [assumption|]. now apply run_rel.
Qed.
Print Assumptions C14_set_swap_partial.
Example C14_case_swap : match reach (step 0%nat 1000) (Live (new 0%nat)) [APushBack [1; 2; 3; 4]%nat] with
  Some (Live l) => match it_swap {| al := l; cur := 0 |} {| al := l; cur := 3 |} with
    Ok a => values 0%nat 1000 a = Ok [4; 2; 3; 1]%nat | _ => False end | _ => False end.
Proof. vm_compute; auto. Qed.

(** C15, array list: with a comparator of the "Ex" convention Contains counts the equal (element, value) pairs ... *)
Theorem C15_arraylist_contains_partial : forall (A : Type) (zero : A) (limit : Z), 16 <= limit <= 2 ^ 62 ->
  forall (ops : list (al_op A)) l comp (lt : A -> A -> Prop) eqb vs, Forall fits ops ->
  reach (step zero limit) (Live (new zero)) ops = Some (Live l) ->
  decides_ex lt comp -> (forall a b, eqb a b = true <-> a = b) ->
  contains comp l vs = Ok (count_equal eqb (sreach al_spec [] ops) vs).
Proof.
  intros A zero limit Hl ops l comp lt eqb vs H1 H2 H3 H4. eapply contains_ok; eauto. eapply reach_new; eauto.
Qed.
Print Assumptions C15_arraylist_contains_partial.
Example C15_case : decides_ex Z.lt any_ex /\ count_equal Z.eqb [1; 2; 1; 3] [1; 3; 9] = 3%nat.
Proof. split; [exact any_ex_decides|reflexivity]. Qed.

(** ... but with the library's plain comparators ([compare.Any] and friends) it misses elements that are there and counts
    smaller ones instead. *)
Theorem C15_arraylist_plain_refuted :
  exists l, reach (step 0 (2 ^ 20)) (Live (new 0)) [APushBack [1; 2]] = Some (Live l) /\
    contains any l [1] = Ok 0%nat /\ contains any l [2] = Ok 1%nat /\ contains any l [3] = Ok 2%nat.
Proof. eexists. repeat (split; [vm_compute; reflexivity|]). vm_compute; reflexivity. Qed.
Print Assumptions C15_arraylist_plain_refuted.

(** C55 is false: whatever the memory limit, a few hundred PopBack and PushFront calls that never hold more than 19
    elements exhaust it; the number of calls needed is logarithmic in the limit (1159 calls for 2^62 elements). *)
Theorem C55_memory_refuted : forall (A : Type) (zero v : A) (limit : Z), 64 <= limit <= 2 ^ 62 ->
  forall k, limit < 64 * 2 ^ Z.of_nat k ->
  exists ops : list (al_op A),
    reach (step zero limit) (Live (new zero)) ops = Some Dead /\ (length ops <= 19 + 20 * k)%nat /\
    (forall j, (length (sreach al_spec [] (firstn j ops)) <= 19)%nat) /\
    Forall (fun o => o = APopBack \/ o = APushFront [v]) ops.
Proof. intros A zero v limit Hl k Hk. apply blowup; lia. Qed.
Print Assumptions C55_memory_refuted.
(** one round of five pops and five pushes on a list of 19: capacity 64 becomes 96, then 144, 216 *)
Example C55_case : map (fun n => match reach (step 0%nat (2 ^ 20)) (Live (new 0%nat))
     (repeat (APushFront [1%nat]) 19 ++ concat (repeat (repeat APopBack 5 ++ repeat (APushFront [1%nat]) 5) n)) with
   Some (Live l) => (length (data l), size l) | _ => (0%nat, 0) end) [0; 1; 2; 3; 4]%nat =
   [(64%nat, 19); (96%nat, 19); (144%nat, 19); (216%nat, 19); (324%nat, 19)].
Proof. vm_compute; reflexivity. Qed.
