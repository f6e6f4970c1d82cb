(** C78: what String() returns. *)
From Verif Require Import Base Bind Machine OrderSpec SMapSpec CompareModel AvlTree AvlSpec PrintSpec PrintModel PrintProofs.
From Verif Require StackSpec StackModel StackProps ArrayListSpec ArrayListModel ArrayListProofs ArrayListProofs2 LinkedListSpec LinkedListModel
  LinkedListProps LinkedHashSpec LinkedHashModel LinkedHashProofs GoMap HashSpec HashModel HashProofs HashProps AvlModel AvlStep AvlProps
  IndexSpec IndexModel IndexProps.
Local Open Scope string_scope.

Section Stacks.
  Context {A : Type} (show : A -> string) (zero : A).
  Import StackSpec StackModel.
  Notation content ops := (rev (sreach stack_spec (@nil A) ops)).
  (** the elements from the bottom of the stack to its top *)
  Theorem C78_array_stack_string spare ops s : reach (ArrayStack.step zero spare) ArrayStack.new ops = Some s ->
    string_array_stack show s = bracketed " " (map show (content ops)).
  Proof.
    intros HR. destruct (run_snoc _ _ Values ops _ _ (StackProps.C05_array_stack A zero spare (ops ++ [Values])%list)) as (s' & s'' & E1 & E2).
    rewrite HR in E1. injection E1 as <-. cbn in E2. injection E2 as _ E2. unfold string_array_stack. rewrite print_slice_ok.
    unfold ArrayStack.values in E2. rewrite E2. reflexivity.
  Qed.
  Theorem C78_list_stack_string ops s : reach (ListStack.step zero) ListStack.new ops = Some s ->
    string_list_stack show zero s = Some (bracketed " " (map show (content ops))).
  Proof.
    intros HR. destruct (run_snoc _ _ Values ops _ _ (StackProps.C06_list_stack A zero (ops ++ [Values])%list)) as (s' & s'' & E1 & E2).
    rewrite HR in E1. injection E1 as <-. cbn in E2. unfold string_list_stack.
    destruct (ListStack.values zero s); [|discriminate]. injection E2 as _ ->. rewrite print_slice_ok. reflexivity.
  Qed.
  Theorem C78_segmented_stack_string cap ops s : (0 < cap)%nat -> reach (SegStack.step zero) (SegStack.new_with_cap zero cap) ops = Some s ->
    string_seg_stack show zero s = Some (bracketed " " (map show (content ops))).
  Proof.
    intros Hc HR.
    destruct (run_snoc _ _ Values ops _ _ (StackProps.C07_segmented_stack_with_cap A zero cap (ops ++ [Values])%list Hc)) as (s' & s'' & E1 & E2).
    rewrite HR in E1. injection E1 as <-. unfold SegStack.step in E2. unfold string_seg_stack.
    destruct (SegStack.values zero s); [|discriminate]. cbn [option_map snd stack_spec] in E2. injection E2 as _ ->. rewrite print_slice_ok. reflexivity.
  Qed.
End Stacks.

(** the elements of a list from front to back *)
Theorem C78_array_list_string : forall (A : Type) (show : A -> string) (zero : A) limit, (16 <= limit <= 2 ^ 62)%Z ->
  forall ops l, Forall ArrayListSpec.fits ops ->
  reach (ArrayListModel.step zero limit) (ArrayListModel.Live (ArrayListModel.new zero)) ops = Some (ArrayListModel.Live l) ->
  string_array_list show zero limit l = ArrayListModel.Ok (bracketed " " (map show (sreach ArrayListSpec.al_spec [] ops))).
Proof.
  intros A show zero limit Hl ops l Hf HR. unfold string_array_list.
  rewrite (ArrayListProofs.values_rel zero limit Hl _ _ (ArrayListProofs2.reach_new zero limit Hl ops l Hf HR)).
  cbn [ArrayListModel.bind]. rewrite print_slice_ok. reflexivity.
Qed.
Theorem C78_linked_list_string : forall (A : Type) (show : A -> string) (zero : A) l0 ops l,
  LinkedListModel.new zero = Some l0 -> reach LinkedListModel.step l0 ops = Some l ->
  string_linked_list show l = Some (bracketed " " (map show (sreach LinkedListSpec.ll_spec [] ops))).
Proof.
  intros A show zero l0 ops l E0 HR.
  destruct (LinkedListProps.C16_linkedlist_sequence A zero (ops ++ [LinkedListSpec.LValues])%list) as (l' & E1 & X).
  rewrite E0 in E1. injection E1 as <-. destruct (run_snoc _ _ LinkedListSpec.LValues ops _ _ X) as (s' & s'' & E1 & E2).
  rewrite HR in E1. injection E1 as <-. cbn in E2. unfold string_linked_list.
  destruct (LinkedListModel.values l); [|discriminate]. injection E2 as _ ->. rewrite print_slice_ok. reflexivity.
Qed.

(** the entries of a linked hash map from front to back *)
Theorem C78_linkedhashmap_string : forall (K V : Type) (keq : K -> K -> bool) (nilk : K) (nilv : V), (forall a b, keq a b = true <-> a = b) ->
  forall (showk : K -> string) (showv : V -> string) m0 ops m,
  LinkedHashModel.new nilk nilv = Some m0 -> reach (LinkedHashModel.step keq nilk nilv) m0 ops = Some m ->
  string_linkedhashmap showk showv m =
    Some (bracketed " " (map (fun e => "{" ++ showk (fst e) ++ ":" ++ showv (snd e) ++ "}") (sreach (LinkedHashSpec.lh_spec keq) [] ops))).
Proof.
  intros K V keq nilk nilv Hk showk showv m0 ops m E0 HR. destruct (LinkedHashProofs.new_rel keq nilk nilv) as (m0' & E & H0).
  rewrite E0 in E. injection E as <-.
  destruct (sim_reach _ _ (LinkedHashProofs.Rel keq) (fun s t o H => LinkedHashProofs.step_ok keq nilk nilv Hk s t o H) ops m0 [] H0) as (m' & E & H1).
  rewrite HR in E. injection E as <-. unfold string_linkedhashmap, LinkedHashModel.slices.
  rewrite (LinkedHashProofs.walk_all_ok keq nilk Hk (fun e => e) m _ H1), map_id, print_slice_ok. reflexivity.
Qed.

(** the keys of a hash set, every one once, and the entries of a hash map, every one once, in some order *)
Section Hash.
  Context {K V : Type} (keq : K -> K -> bool) (Hk : forall a b, keq a b = true <-> a = b) (nilk : K) (nilv : V).
  Context (showk : K -> string) (showv : V -> string).
  Import GoMap HashSpec HashModel HashProofs.
  Theorem C78_hashmap_string (order : nat -> gmap K V -> gmap K V) (sort : gmap K V -> gmap K V) ops s :
    (forall n m, Permutation (order n m) m) -> (forall m, Permutation (sort m) m) ->
    reach (step keq nilk nilv order) new ops = Some s ->
    exists l, (NoDup (map fst l) /\ forall k v, In (k, v) l <-> fold_left (next keq) ops fempty k = Some v) /\
      string_hashmap showk showv sort s = "map" ++ bracketed " " (map (fun e => showk (fst e) ++ ":" ++ showv (snd e)) l).
  Proof using Hk.
    intros Ho Hs HR.
    assert (H1 : Rel keq s (fold_left (next keq) ops fempty)).
    { revert HR. assert (H0 : Rel keq (@new K V) fempty) by (split; [apply NoDup_nil|reflexivity]). revert H0.
      generalize (@fempty K V) as f. generalize (@new K V) as s0.
      induction ops as [|o' ops IH]; intros s0 f H0 Hr; cbn [reach fold_left] in *; [congruence|].
      destruct (step_ok keq nilk nilv order Hk Ho s0 f o' H0) as (s1 & r1 & E1 & _ & H1). rewrite E1 in Hr. eapply IH; eauto. }
    exists (sort (hm s)). split; [|unfold string_hashmap, print_map, bracketed; rewrite print_elements_ok; reflexivity].
    destruct H1 as (Hn & H1). split.
    - eapply Permutation_NoDup; [|exact Hn]. apply Permutation_sym. unfold keys_of. apply Permutation_map. apply Hs.
    - intros k v. rewrite <- H1. split.
      + intros Hi. apply (gm_In_get keq Hk _ _ _ Hn). eapply Permutation_in; [apply Hs|exact Hi].
      + intros Hi. eapply Permutation_in; [apply Permutation_sym, Hs|]. apply (gm_get_In keq Hk _ _ _ Hi).
  Qed.
End Hash.
Section HashSet.
  Context {K : Type} (keq : K -> K -> bool) (Hk : forall a b, keq a b = true <-> a = b) (nilk : K) (showk : K -> string).
  Import GoMap HashSpec HashModel HashProofs.
  Theorem C78_hashset_string (order : nat -> gmap K unit -> gmap K unit) ops s : (forall n m, Permutation (order n m) m) ->
    reach (sstep keq nilk order) snew ops = Some s ->
    exists l, lists_set (fold_left snext ops (fun _ => False)) l /\ string_hashset showk order s = bracketed "," (map showk l).
  Proof using Hk.
    intros Ho HR.
    assert (H1 : sinv (hs s) (fold_left snext ops (fun _ => False))).
    { revert HR. assert (H0 : sinv (hs (@snew K)) (fun _ => False)) by (split; [apply NoDup_nil|intros k; cbn; tauto]). revert H0.
      generalize (fun _ : K => False) as f. generalize (@snew K) as s0.
      induction ops as [|o' ops IH]; intros s0 f H0 Hr; cbn [reach fold_left] in *; [congruence|].
      destruct (sstep_ok keq nilk order Hk Ho s0 f o' H0) as (s1 & r1 & E1 & _ & H1). rewrite E1 in Hr. eapply IH; eauto. }
    exists (keys_of (order (stick s) (hs s))). destruct H1 as (Hn & H1). split; [split|].
    - eapply Permutation_NoDup; [|exact Hn]. apply Permutation_sym. unfold keys_of. apply Permutation_map. apply Ho.
    - intros k. rewrite <- H1. unfold keys_of. split; apply Permutation_in; [|apply Permutation_sym]; apply Permutation_map, Ho.
    - unfold string_hashset, bracketed, keys_of. rewrite join_ok, map_map. reflexivity.
  Qed.
End HashSet.

Section Trees.
  Context {K V : Type} (ltb : K -> K -> bool) (W : weak_order ltb) (cmp : K -> K -> Z).
  (** the values of a tree set in increasing order of the keys *)
  Theorem C78_treeset_string (Hcmp : ex_cmp ltb cmp) (showv : V -> string) d (ops : list (sm_op K V)) s :
    reach (AvlModel.step cmp One d) AvlModel.new ops = Some s ->
    string_treeset showv s = Some (bracketed " " (map showv (map snd (sreach (smap_spec ltb) [] ops)))).
  Proof.
    intros HR. destruct (AvlStep.reach_any ltb W cmp Hcmp One d ops AvlModel.new [] s (AvlProps.rel_new ltb) HR) as (<- & _ & _).
    apply string_treeset_ok.
  Qed.
  (** A drawing of an index tree has one line for every entry, from the largest key to the smallest, indented by its depth.
      Full statement: after all [ops].  Missing: after a TrimByIndex that panicked half way. *)
  Theorem C78_indextree_string_partial (Hcmp : plain_cmp ltb cmp) (shift : Z) (Hsh : (0 <= shift)%Z) (showk : K -> string)
    (ops : list (IndexSpec.ix_op K V)) : IndexSpec.trims_in_range ltb [] ops ->
    let t := sreach (IndexModel.step cmp shift) E ops in
    exists lines, string_indextree showk t = "IndexTree" ++ String (ascii_of_nat 10) "" ++ String.concat "" lines ++ (match t with E => "nil" | _ => "" end) /\
      map fst (levels 0 t) = rev (map fst (sreach (IndexSpec.ix_spec ltb) [] ops)) /\
      Forall2 (fun e line => drawn cells marks (showk (fst e)) (snd e) line) (levels 0 t) lines.
  Proof.
    intros HT t. destruct (IndexProps.C30_indextree_content ltb W cmp Hcmp shift Hsh ops HT) as (Hc & _). fold t in Hc.
    destruct (output_ok showk t "" true ("IndexTree" ++ newline)) as (lines & L1 & L2). exists lines. split; [|split; [|exact L1]].
    - assert (X : map (fun line => "" ++ line) lines = lines) by (etransitivity; [apply map_ext; intros; reflexivity|apply map_id]).
      rewrite X in L2. unfold string_indextree. destruct t; [inversion L1; reflexivity|]. rewrite L2, sapp_assoc, sapp_nil. reflexivity.
    - rewrite levels_keys, Hc. reflexivity.
  Qed.
End Trees.

(** Items that are not empty and have no blank in them can be told apart in what is printed, and their order ... *)
Theorem C78_print_injective : forall (A : Type) (show : A -> string) (l l' : list A),
  (forall x, In x l \/ In x l' -> avoids " " (show x) /\ show x <> "") ->
  print_slice show l = print_slice show l' -> map show l = map show l'.
Proof.
  intros A show l l' H E1. rewrite !print_slice_ok in E1. apply (bracketed_inj " "); [| |exact E1];
    apply Forall_forall; intros s Hs; apply in_map_iff in Hs; destruct Hs as (x & <- & Hx); apply H; auto.
Qed.
(** ... others cannot: two lists of different lengths are printed alike *)
Theorem C78_print_injective_refuted : exists l l' : list string, List.length l <> List.length l' /\
  print_slice (fun s => s) l = print_slice (fun s => s) l'.
Proof. exists ["a b"], ["a"; "b"]. split; [discriminate|reflexivity]. Qed.
(** A tree set prints values, not keys: sets with different elements are printed alike. *)
Theorem C78_treeset_keys_refuted : exists (ops ops' : list (sm_op Z string)) s s',
  reach (AvlModel.step any_ex One 2) AvlModel.new ops = Some s /\ reach (AvlModel.step any_ex One 2) AvlModel.new ops' = Some s' /\
  map fst (elems (AvlModel.root s)) <> map fst (elems (AvlModel.root s')) /\
  string_treeset (fun v => v) s = string_treeset (fun v => v) s'.
Proof.
  exists [MSet 1%Z "x"], [MSet 2%Z "x"]. do 2 eexists. split; [vm_compute; reflexivity|]. split; [vm_compute; reflexivity|].
  split; [discriminate|reflexivity].
Qed.
(** Examples: a digit for a number. *)
Definition digit (n : nat) : string := String (ascii_of_nat (48 + n)) "".
Example C78_case_stacks :
  let ops := [StackSpec.Push 1; StackSpec.Push 2; StackSpec.Pop; StackSpec.Push 3; StackSpec.Push 4]%nat in
  (option_map (string_array_stack digit) (reach (StackModel.ArrayStack.step 0%nat (fun n => n)) StackModel.ArrayStack.new ops) = Some "[1 3 4]") /\
  (s <- reach (StackModel.ListStack.step 0%nat) StackModel.ListStack.new ops ;; string_list_stack digit 0%nat s) = Some "[1 3 4]" /\
  (s <- reach (StackModel.SegStack.step 0%nat) (StackModel.SegStack.new_with_cap 0%nat 2) ops ;; string_seg_stack digit 0%nat s) = Some "[1 3 4]".
Proof. repeat split; vm_compute; reflexivity. Qed.
Example C78_case_lists :
  (s <- reach (ArrayListModel.step 0%nat 1000) (ArrayListModel.Live (ArrayListModel.new 0%nat))
          [ArrayListSpec.APushBack [1; 2]%nat; ArrayListSpec.APushFront [3]%nat] ;;
   match s with ArrayListModel.Live l => Some (string_array_list digit 0%nat 1000 l) | _ => None end) = Some (ArrayListModel.Ok "[3 1 2]") /\
  Forall ArrayListSpec.fits [ArrayListSpec.APushBack [1; 2]%nat; ArrayListSpec.APushFront [3]%nat] /\
  (l0 <- LinkedListModel.new 0%nat ;; l <- reach LinkedListModel.step l0 [LinkedListSpec.LPushBack [1; 2]%nat; LinkedListSpec.LPushFront [3]%nat] ;;
   string_linked_list digit l) = Some "[3 1 2]".
Proof. split; [vm_compute; reflexivity|]. split; [|vm_compute; reflexivity]. repeat constructor. Qed.
Example C78_case_maps :
  (m0 <- LinkedHashModel.new 0%nat 0%nat ;;
   m <- reach (LinkedHashModel.step Nat.eqb 0%nat 0%nat) m0 [LinkedHashSpec.LPut 1 5; LinkedHashSpec.LPut 2 6; LinkedHashSpec.LPushFront 3 7]%nat ;;
   string_linkedhashmap digit digit m) = Some "[{3:7} {1:5} {2:6}]" /\
  (option_map (string_hashmap digit digit (fun m => m))
     (reach (HashModel.step Nat.eqb 0%nat 0%nat HashProps.alternating) HashModel.new [HashSpec.HPut 1 5; HashSpec.HPut 2 6; HashSpec.HDelete 1]%nat)
     = Some "map[2:6]") /\
  (option_map (string_hashset digit HashProps.alternating)
     (reach (HashModel.sstep Nat.eqb 0%nat HashProps.alternating) HashModel.snew [HashSpec.SAdd [1; 2; 3]; HashSpec.SRemove [2]]%nat) = Some "[3,1]" \/
   option_map (string_hashset digit HashProps.alternating)
     (reach (HashModel.sstep Nat.eqb 0%nat HashProps.alternating) HashModel.snew [HashSpec.SAdd [1; 2; 3]; HashSpec.SRemove [2]]%nat) = Some "[1,3]").
Proof. split; [vm_compute; reflexivity|]. split; [vm_compute; reflexivity|]. first [left; vm_compute; reflexivity|right; vm_compute; reflexivity]. Qed.
Example C78_case_treeset :
  (s <- reach (AvlModel.step any_ex One 2) AvlModel.new [MSet 3%Z 4; MSet 1%Z 5; MSet 2%Z 6]%nat ;; string_treeset digit s)
    = Some "[5 6 4]".
Proof. vm_compute. reflexivity. Qed.
Definition C78_ops : list (IndexSpec.ix_op Z nat) := [IndexSpec.XPut 2%Z (Some 0%nat); IndexSpec.XPut 1%Z (Some 0%nat); IndexSpec.XPut 3%Z (Some 0%nat)].
Example C78_case_indextree : IndexSpec.trims_in_range Z.ltb [] C78_ops /\
  string_indextree (fun k => digit (Z.to_nat k)) (sreach (IndexModel.step any 0) E C78_ops) =
    "IndexTree" ++ newline ++ esc "[34m│   " ++ esc "[0m" ++ esc "[31m┌── " ++ esc "[0m" ++ "3" ++ newline ++
    esc "[34m└── " ++ esc "[0m" ++ "2" ++ newline ++ "    " ++ esc "[34m└── " ++ esc "[0m" ++ "1" ++ newline.
Proof. split; [cbn; tauto|vm_compute; reflexivity]. Qed.
Example C78_case_injective : forall x, In x [1; 2]%nat \/ In x [2; 3]%nat -> avoids " " (digit x) /\ digit x <> "".
Proof. intros x Hx. assert (Hc : x = 1%nat \/ x = 2%nat \/ x = 3%nat) by (cbn in Hx; lia). destruct Hc as [->|[->| ->]]; (split; [split; [discriminate|exact I]|discriminate]). Qed.

Print Assumptions C78_array_stack_string.
Print Assumptions C78_list_stack_string.
Print Assumptions C78_segmented_stack_string.
Print Assumptions C78_array_list_string.
Print Assumptions C78_linked_list_string.
Print Assumptions C78_linkedhashmap_string.
Print Assumptions C78_hashmap_string.
Print Assumptions C78_hashset_string.
Print Assumptions C78_treeset_string.
Print Assumptions C78_indextree_string_partial.
Print Assumptions C78_print_injective.
Print Assumptions C78_print_injective_refuted.
Print Assumptions C78_treeset_keys_refuted.
