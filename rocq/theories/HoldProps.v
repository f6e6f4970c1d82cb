(** C80: what a container keeps alive. *)
From Verif Require Import Base Bind Machine GoMap OrderSpec SMapSpec CompareModel AvlTree AvlSpec DLL HoldSpec HoldProofs.
From Verif Require ListQueueSpec ListQueueModel ListQueueProofs LinkedListSpec LinkedListModel LinkedListProofs LinkedListIter LinkedListProps
  LinkedHashSpec LinkedHashModel LinkedHashProofs SkipSpec SkipModel SkipProofs SkipOps SkipProps HoldSkipProofs.
From Verif Require IndexSpec IndexModel IndexHeapModel IndexHeapProofs IndexHeapReadProofs IndexProofs IndexHeapProps IndexProps
  TreelistSpec TreelistModel TreelistProofs TreelistSteps TreelistProps TreelistHeapModel TreelistHeapProofs TreelistHeapProps HoldTreeProofs.
From Verif Require StackSpec StackModel StackProofs QueueSpec ArrayQueueModel HoldQueueProofs HeapSpec HeapModel ArrayListSpec ArrayListModel.

(** ** containers that let go of what was removed *)

(** queue/list: fields head and tail; the pointers of an element are prev and next *)
Definition list_queue_root {A} (q : ListQueueModel.lqueue (A := A)) (a : nat) : Prop :=
  ListQueueModel.head q = Some a \/ ListQueueModel.tail q = Some a.
Theorem C80_list_queue : forall (A : Type) (ops : list (ListQueueSpec.lq_op A)),
  exists q, reach ListQueueModel.step ListQueueModel.new ops = Some q /\
    holds_just (dll_edge (ListQueueModel.hp q)) (list_queue_root q) [] (dll_val (ListQueueModel.hp q)) (sreach ListQueueSpec.lq_spec [] ops).
Proof.
  intros A ops. destruct (sim_reach ListQueueModel.step ListQueueSpec.lq_spec (ListQueueProofs.Rel (A := A))) with (ops := ops) (s := ListQueueModel.new (A := A)) (t := @nil A)
    as (q & Er & L & HL & Hn & Hc & Hh & Ht & _).
  - intros s t o. apply ListQueueProofs.step_rel.
  - apply ListQueueProofs.new_rel.
  - exists q. split; [exact Er|]. rewrite <- HL. apply chain_holds; auto.
    + intros a [H|H]; [rewrite Hh in H|rewrite Ht in H].
      * destruct L as [|(x, v) L]; [discriminate|]. left. cbn in *. congruence.
      * clear - H. induction L as [|(x, v) L _] using rev_ind; [discriminate|]. rewrite last_ptr_snoc in H. rewrite map_app. apply in_or_app. right. left. cbn. congruence.
    + intros a Ha. left. congruence.
Qed.
Print Assumptions C80_list_queue.

(** list/linked_list: fields head and tail, both sentinels *)
Definition linked_list_root {A} (l : LinkedListModel.llist (A := A)) (a : nat) : Prop :=
  LinkedListModel.head l = Some a \/ LinkedListModel.tail l = Some a.
Definition linked_list_holds {A} (l : LinkedListModel.llist (A := A)) (vs : list A) : Prop :=
  exists first final, LinkedListModel.head l = Some first /\ LinkedListModel.tail l = Some final /\
    holds_just (dll_edge (LinkedListModel.hp l)) (linked_list_root l) [first; final] (dll_val (LinkedListModel.hp l)) vs.
Lemma linked_list_holds_rel {A} (l : LinkedListModel.llist (A := A)) L n : LinkedListProofs.RelL l L n -> linked_list_holds l (map snd L).
Proof.
  intros (Eh & Et & _ & _ & vh & vt & Hn & Hc). exists 0, 1. split; [exact Eh|]. split; [exact Et|].
  apply (ring_holds _ _ 0 vh L 1 vt); auto; [left; exact Eh|]. intros a [H|H]; [left|right; right]; congruence.
Qed.
Theorem C80_linked_list : forall (A : Type) (zero : A) (ops : list (LinkedListSpec.ll_op A)) l0 l,
  LinkedListModel.new zero = Some l0 -> reach LinkedListModel.step l0 ops = Some l -> linked_list_holds l (sreach LinkedListSpec.ll_spec [] ops).
Proof.
  intros A zero ops l0 l E0 Er. destruct (LinkedListProofs.new_ok zero) as (l' & E & HR). assert (l' = l0) by congruence. subst l'.
  destruct (sim_reach LinkedListModel.step LinkedListSpec.ll_spec (fun l (t : list A) => exists L n, LinkedListProofs.RelL l L n /\ map snd L = t)) with (ops := ops) (s := l0) (t := @nil A)
    as (l' & Er' & L & n & HR' & <-).
  - clear. intros l t o (L & n & HR & <-).
    destruct (LinkedListProofs.step_ok l (LinkedListSpec.CS L n (fun _ => 1)) o HR) as (l' & E & HR' & _).
    destruct (LinkedListProofs.list_step_spec (LinkedListSpec.CS L n (fun _ => 1)) o) as [E1 E2]. cbn [LinkedListSpec.cells] in E1, E2.
    exists l'. rewrite E, E2. split; [reflexivity|]. eexists _, _. split; [exact HR'|exact E1].
  - exists [], 2. auto.
  - assert (l' = l) by congruence. subst l'. eapply linked_list_holds_rel; exact HR'.
Qed.
(** ... whatever any number of iterators of both kinds did to the list, too *)
Theorem C80_linked_list_iterators : forall (A : Type) (zero : A) (ops : list (LinkedListSpec.c_op A)) t s0 s,
  reach LinkedListSpec.c_spec LinkedListSpec.cnew ops = Some t -> LinkedListModel.sys_new zero = Some s0 -> reach LinkedListModel.sys_step s0 ops = Some s ->
  linked_list_holds (LinkedListModel.lst s) (map snd (LinkedListSpec.cells t)).
Proof.
  intros A zero ops t s0 s Ht E0 Es. destruct (LinkedListIter.sys_new_ok zero) as (s' & E & HR). assert (s' = s0) by congruence. subst s'.
  assert (Hrun : exists rs, run LinkedListSpec.c_spec LinkedListSpec.cnew ops = Some rs).
  { clear - Ht. revert Ht. generalize (@LinkedListSpec.cnew A). induction ops as [|o ops IH]; intros c Ht; cbn [run reach] in *; [eauto|].
    destruct (LinkedListSpec.c_spec c o) as [[c' r]|]; [|discriminate]. destruct (IH _ Ht) as (rs & ->). cbn. eauto. }
  destruct Hrun as (rs & Hrun).
  destruct (LinkedListProps.run_sim LinkedListModel.sys_step LinkedListSpec.c_spec LinkedListProofs.Rel (fun s0 t t' o r => LinkedListIter.sys_step_ok s0 t t' o r) ops s0
    LinkedListSpec.cnew rs HR Hrun) as (_ & s1 & t1 & E1 & E2 & [HR' _]).
  assert (s1 = s) by congruence. assert (t1 = t) by congruence. subst s1 t1. eapply linked_list_holds_rel; exact HR'.
Qed.
Print Assumptions C80_linked_list.
Print Assumptions C80_linked_list_iterators.

(** map/linkedhashmap: fields head and tail (sentinels) and the hash index, whose values point to nodes; its keys are those
    of the entries *)
Definition hash_root {K V} (m : LinkedHashModel.lhm (K := K) (V := V)) (a : nat) : Prop :=
  LinkedHashModel.head m = Some a \/ LinkedHashModel.tail m = Some a \/ exists k, In (k, Some a) (LinkedHashModel.idx m).
Theorem C80_linked_hash_map : forall (K V : Type) (keq : K -> K -> bool) (nilk : K) (nilv : V), (forall a b, keq a b = true <-> a = b) ->
  forall m0 ops m, LinkedHashModel.new nilk nilv = Some m0 -> reach (LinkedHashModel.step keq nilk nilv) m0 ops = Some m ->
  exists first final, LinkedHashModel.head m = Some first /\ LinkedHashModel.tail m = Some final /\
    holds_just (dll_edge (LinkedHashModel.hp m)) (hash_root m) [first; final] (dll_val (LinkedHashModel.hp m)) (sreach (LinkedHashSpec.lh_spec keq) [] ops) /\
    Permutation (keys_of (LinkedHashModel.idx m)) (map fst (sreach (LinkedHashSpec.lh_spec keq) [] ops)).
Proof.
  intros K V keq nilk nilv Hk m0 ops m E0 Er. destruct (LinkedHashProofs.new_rel keq nilk nilv) as (m0' & E & HR).
  assert (m0' = m0) by congruence. subst m0'.
  destruct (sim_reach _ _ (LinkedHashProofs.Rel keq) (fun s t o H => LinkedHashProofs.step_ok keq nilk nilv Hk s t o H) ops m0 [] HR)
    as (m' & Er' & L & (ah & vh & at_ & vt & Eh & Et & Hn & Hc & Hi) & HL). assert (m' = m) by congruence. subst m'.
  exists ah, at_. split; [exact Eh|]. split; [exact Et|]. rewrite <- HL. destruct Hi as (I1 & I2 & I3). split.
  - apply (ring_holds _ _ ah vh L at_ vt); auto; [left; exact Eh|]. intros a [H|[H|(k & H)]]; [left; congruence|right; right; congruence|].
    right. left. assert (Hg : gm_get keq (LinkedHashModel.idx m) k = Some (Some a)) by (apply gm_In_get; auto).
    apply I3 in Hg as (a' & v & [= <-] & Hin). apply in_map_iff. exists (a, (k, v)). auto.
  - rewrite map_map. apply NoDup_Permutation; auto. intros k. split.
    + intros H. apply in_map_iff in H as ((k', q) & Ek & H). cbn in Ek. subst k'.
      assert (Hg : gm_get keq (LinkedHashModel.idx m) k = Some q) by (apply gm_In_get; auto).
      apply I3 in Hg as (a & v & _ & Hin). apply in_map_iff. exists (a, (k, v)). auto.
    + intros H. apply in_map_iff in H as ((a, (k', v)) & Ek & H). cbn in Ek. subst k'.
      assert (Hg : gm_get keq (LinkedHashModel.idx m) k = Some (Some a)) by (apply I3; eauto).
      apply gm_get_In in Hg; auto. apply in_map_iff. exists (k, Some a). auto.
Qed.
Print Assumptions C80_linked_hash_map.

(** tree/skiplist: field header; the pointers of a node are its Forward cells, all of them *)
Theorem C80_skip_list {K V : Type} (ltb : K -> K -> bool) (W : weak_order ltb) (cmp : K -> K -> Z) (Hc : sign_cmp ltb cmp) l (ops : list (SkipSpec.sk_op K V)) :
  exists s, reach (SkipModel.sk_step cmp) (SkipModel.NewWithMaxLevel l) ops = Some s /\
    holds_just (HoldSkipProofs.skip_edge (SkipModel.mem s)) (eq (SkipModel.header s)) [SkipModel.header s] (SkipModel.entry (SkipModel.mem s)) (sreach (SkipSpec.sk_spec ltb) [] ops).
Proof.
  destruct (SkipProps.reached ltb W cmp Hc l ops) as (s & Er & HR). exists s. split; [exact Er|]. exact (HoldSkipProofs.skip_holds ltb s _ HR).
Qed.
Print Assumptions C80_skip_list.

(** tree/indextree: field root; the pointers of a node are Children and Parent.  Full statement: for all [ops].  Missing:
    after a TrimByIndex that panicked half way. *)
Theorem C80_index_tree_partial {K A : Type} (ltb : K -> K -> bool) (W : weak_order ltb) (cmp : K -> K -> Z) (Hcmp : plain_cmp ltb cmp)
    (shift : Z) (Hsh : (0 <= shift)%Z) (zero : K) (ops : list (IndexSpec.ix_op K A)) : IndexSpec.trims_in_range ltb [] ops ->
  exists m r, reach (IndexHeapModel.hstep cmp shift zero) (IndexHeapModel.new zero) ops = Some (m, r) /\
    holds_just (HoldTreeProofs.tree_edge m r) (eq r) [r] (HoldTreeProofs.node_entry m) (sreach (IndexSpec.ix_spec ltb) [] ops).
Proof.
  intros H. destruct (IndexHeapProps.run_new ltb W cmp Hcmp shift Hsh zero ops H) as (_ & m & r & Er & Hr). exists m, r. split; [exact Er|].
  destruct (IndexProofs.xrun_ok ltb W cmp Hcmp shift Hsh ops E [] (IndexProofs.xrel_new ltb) H) as ((E1 & _) & _). rewrite <- E1.
  exact (HoldTreeProofs.tree_holds m r _ Hr).
Qed.
Print Assumptions C80_index_tree_partial.

(** tree/treelist: the same and Direct.  Full statement: for all [ops].  Missing: after a Put that panicked, after a TrimByIndex
    that panicked half way, and after a Trim that kept nothing (see below). *)
Theorem C80_tree_list_partial {K V : Type} (ltb : K -> K -> bool) (W : weak_order ltb) (cmp : K -> K -> Z) (Hcmp : plain_cmp ltb cmp)
    (zero : K) (zeroV : V) (ops : list (TreelistSpec.tl_op K V)) : TreelistProps.puts_work cmp ops -> TreelistSpec.trims_inside ltb [] ops ->
  TreelistSpec.stale_run ltb false [] ops = false ->
  exists m, reach (TreelistHeapModel.thstep cmp) (TreelistHeapModel.tnew zero zeroV) ops = Some m /\
    holds_just (HoldTreeProofs.list_edge m 0) (eq 0) [0] (HoldTreeProofs.node_entry (TreelistHeapModel.base m)) (sreach (TreelistSpec.tl_spec ltb) [] ops).
Proof.
  intros Hp Ht Hs. destruct (TreelistHeapProps.C70_nodes_threaded_partial ltb W cmp Hcmp zero zeroV ops Hp Ht Hs) as (m & l & R & T & Ev).
  destruct (TreelistHeapProps.tgrown ltb W cmp Hcmp zero zeroV ops Hp Ht) as (m' & R' & Q). assert (m' = m) by congruence. subst m'.
  destruct (TreelistHeapProofs.tr_tree _ _ Q) as (x & O & _). apply TreelistHeapProofs.ok_base in O.
  exists m. split; [exact R|]. apply (HoldTreeProofs.list_holds m x l); auto.
  intros a. rewrite (TreelistHeapProps.th_nodes _ _ _ T). now apply TreelistHeapProps.node_addr.
Qed.
Print Assumptions C80_tree_list_partial.

(** ** containers that do not: they keep values in slots of an array and leave a value where it was when it is taken out *)

(** stack/array: whatever was pushed, popping all of it (or Clear) leaves all of it in the backing array of the empty stack,
    however the runtime grows slices *)
Theorem C80_array_stack_keeps : forall (A : Type) (zero : A) (spare : nat -> nat) (xs : list A) (empty : list (StackSpec.stack_op A)),
  empty = [StackSpec.Clear] \/ empty = repeat StackSpec.Pop (length xs) ->
  exists s, reach (StackModel.ArrayStack.step zero spare) StackModel.ArrayStack.new (map StackSpec.Push xs ++ empty) = Some s /\
    StackModel.ArrayStack.values s = [] /\ forall x, In x xs -> In x (StackModel.ArrayStack.buf s).
Proof.
  intros A zero spare xs empty He.
  assert (Happ : forall s o1 o2, reach (StackModel.ArrayStack.step zero spare) s (o1 ++ o2) =
    match reach (StackModel.ArrayStack.step zero spare) s o1 with Some s' => reach (StackModel.ArrayStack.step zero spare) s' o2 | None => None end).
  { intros s o1. revert s. induction o1 as [|o o1 IH]; intros s o2; [reflexivity|]. cbn [app reach]. destruct (StackModel.ArrayStack.step zero spare s o) as [(s', r)|]; auto. }
  destruct (sim_reach _ _ StackProofs.ArrayStackP.Rel (StackProofs.ArrayStackP.sim zero spare) (map StackSpec.Push xs) StackModel.ArrayStack.new []) as (s & Er & H1 & H2);
    [split; cbn; auto|].
  assert (Hl : forall l, sreach StackSpec.stack_spec l (map StackSpec.Push xs) = rev xs ++ l).
  { clear. induction xs as [|x xs IH]; intros l; [reflexivity|]. cbn [map sreach StackSpec.stack_spec fst rev]. rewrite IH, <- app_assoc. reflexivity. }
  rewrite Hl, app_nil_r, rev_involutive in H2.
  assert (Hb : forall x, In x xs -> In x (StackModel.ArrayStack.buf s)).
  { intros x Hx. rewrite <- H2 in Hx. rewrite <- (firstn_skipn (StackModel.ArrayStack.len s)). apply in_or_app. auto. }
  assert (Hn : StackModel.ArrayStack.len s = length xs) by (rewrite <- H2, firstn_length; lia).
  setoid_rewrite Happ. rewrite Er. destruct He as [-> | ->].
  - eexists. split; [reflexivity|]. split; [reflexivity|exact Hb].
  - clear Er H2. revert s H1 Hb Hn. generalize (length xs) as n. induction n as [|n IH]; intros s H1 Hb Hn; cbn [repeat reach].
    + exists s. split; [reflexivity|]. split; [|exact Hb]. unfold StackModel.ArrayStack.values. now rewrite Hn.
    + cbn [StackModel.ArrayStack.step]. unfold StackModel.ArrayStack.pop. rewrite Hn. cbn [Nat.eqb]. replace (S n - 1) with n by lia.
      destruct (StackProofs.nth_error_lt_ex (StackModel.ArrayStack.buf s) n) as (y & Hy); [lia|]. rewrite Hy. apply IH; cbn; auto; lia.
Qed.
Print Assumptions C80_array_stack_keeps.

(** one value pushed (put) and taken out again; the container is empty and still refers to it *)
Theorem C80_segmented_stack_refuted : exists (ops : list (StackSpec.stack_op nat)) s x,
  reach (StackModel.SegStack.step 0) (StackModel.SegStack.new 0) ops = Some s /\ sreach StackSpec.stack_spec [] ops = [] /\
  In x (StackModel.SegStack.elements (StackModel.SegStack.top s)) /\ x <> 0.
Proof. exists [StackSpec.Push 7; StackSpec.Pop]. eexists _, 7. split; [reflexivity|]. cbn. intuition congruence. Qed.
(** queue/linkedarray: the slots of its array hold the elements and besides either zeros alone or fewer values than there are
    elements.  So an empty one holds nothing; one that is not may hold on to values that were taken out. *)
Theorem C80_circular_queue_partial : forall (A : Type) (zero : A) (ops : list (QueueSpec.queue_op A)),
  exists q rest, reach (ArrayQueueModel.step zero) (ArrayQueueModel.new zero) ops = Some q /\
    Permutation (ArrayQueueModel.data q) (sreach QueueSpec.queue_spec [] ops ++ rest) /\
    (Forall (eq zero) rest \/ length rest < length (sreach QueueSpec.queue_spec [] ops)).
Proof. intros A zero ops. exact (HoldQueueProofs.queue_slots zero ops). Qed.
Print Assumptions C80_circular_queue_partial.
Theorem C80_circular_queue_refuted : exists (ops : list (QueueSpec.queue_op nat)) q x,
  reach (ArrayQueueModel.step 0) (ArrayQueueModel.new 0) ops = Some q /\ In x (ArrayQueueModel.data q) /\ ~ In x (sreach QueueSpec.queue_spec [] ops) /\ x <> 0.
Proof.
  exists (map QueueSpec.QPushBack (seq 1 8) ++ repeat QueueSpec.QPopBack 3). vm_compute. eexists _, 8. split; [reflexivity|]. cbn. intuition congruence.
Qed.
Theorem C80_heap_refuted : exists (ops : list (HeapSpec.heap_op nat)) h x,
  reach (HeapModel.step 0 (fun a b => Z.of_nat a - Z.of_nat b)%Z) (HeapModel.new 0) ops = Some h /\ HeapModel.size h = 0 /\ In x (HeapModel.elements h) /\ x <> 0.
Proof. exists [HeapSpec.HPut 7; HeapSpec.HPop]. vm_compute. eexists _, 7. split; [reflexivity|]. cbn. intuition congruence. Qed.
Theorem C80_array_list_refuted : exists (ops : list (ArrayListSpec.al_op nat)) l x,
  reach (ArrayListModel.step 0 1000) (ArrayListModel.Live (ArrayListModel.new 0)) ops = Some (ArrayListModel.Live l) /\ ArrayListModel.size l = 0%Z /\
  In x (ArrayListModel.data l) /\ x <> 0.
Proof. exists [ArrayListSpec.APush 7; ArrayListSpec.APopBack]. vm_compute. eexists _, 7. split; [reflexivity|]. cbn. intuition congruence. Qed.
(** tree/treelist after a Trim that keeps nothing: no entry is left, yet both ends of the thread lead to nodes taken out *)
Theorem C80_tree_list_refuted : exists (ops : list (TreelistSpec.tl_op Z Z)) m a e,
  TreelistProps.puts_work any ops /\ TreelistSpec.trims_inside Z.ltb [] ops /\
  reach (TreelistHeapModel.thstep any) (TreelistHeapModel.tnew 0%Z 0%Z) ops = Some m /\ sreach (TreelistSpec.tl_spec Z.ltb) [] ops = [] /\
  held (HoldTreeProofs.list_edge m 0) (eq 0) a /\ a <> 0 /\ HoldTreeProofs.node_entry (TreelistHeapModel.base m) a = Some e.
Proof.
  set (ops := [TreelistSpec.TPut 1 10; TreelistSpec.TPut 2 20; TreelistSpec.TTrim 5 6]%Z : list (TreelistSpec.tl_op Z Z)). exists ops.
  destruct (reach (TreelistHeapModel.thstep any) (TreelistHeapModel.tnew 0%Z 0%Z) ops) as [m|] eqn:Er; [|vm_compute in Er; discriminate].
  assert (H : option_map (fun m => (TreelistHeapModel.Direct m 0 false, HoldTreeProofs.node_entry (TreelistHeapModel.base m) 1)) (reach (TreelistHeapModel.thstep any) (TreelistHeapModel.tnew 0%Z 0%Z) ops)
    = Some (Some 1, Some (1, 10)%Z)) by (vm_compute; reflexivity).
  rewrite Er in H. cbn [option_map] in H. injection H as H1 H2 H3.
  exists m, 1, (1, 10)%Z. split; [apply TreelistProps.puts_checked; reflexivity|]. split; [cbn; auto 12|]. split; [reflexivity|]. split; [reflexivity|].
  split; [|split; [discriminate|unfold HoldTreeProofs.node_entry; congruence]]. apply (held_edge _ _ 0 1); [apply held_root; reflexivity|]. right. exists false. exact H1.
Qed.
Print Assumptions C80_segmented_stack_refuted.
Print Assumptions C80_circular_queue_refuted.
Print Assumptions C80_heap_refuted.
Print Assumptions C80_array_list_refuted.
Print Assumptions C80_tree_list_refuted.

(** ** examples *)
(** five elements went in, one is left; the five are still in the model's memory, of which one is kept alive *)
Example C80_list_queue_case :
  let ops := [ListQueueSpec.LPushBack 1; ListQueueSpec.LPushFront 2; ListQueueSpec.LPushBack 3; ListQueueSpec.LPopFront; ListQueueSpec.LPopBack; ListQueueSpec.LPopBack;
              ListQueueSpec.LPushBack 4; ListQueueSpec.LPushBack 5; ListQueueSpec.LPopFront] in
  option_map (fun q => length (ListQueueModel.hp q)) (reach ListQueueModel.step ListQueueModel.new ops) = Some 5 /\ sreach ListQueueSpec.lq_spec [] ops = [5].
Proof. split; reflexivity. Qed.
Example C80_linked_list_case :
  let ops := [LinkedListSpec.LPushBack [1; 2; 3; 4]; LinkedListSpec.LPopFront; LinkedListSpec.LPopBack; LinkedListSpec.LPushFront [9]] in
  (exists l0, LinkedListModel.new 0 = Some l0 /\ option_map (fun l => length (LinkedListModel.hp l)) (reach LinkedListModel.step l0 ops) = Some 7) /\
  sreach LinkedListSpec.ll_spec [] ops = [9; 2; 3].
Proof. split; [eexists; split; reflexivity|reflexivity]. Qed.
Example C80_linked_list_iterators_case :
  option_map (fun t => map snd (LinkedListSpec.cells t)) (reach LinkedListSpec.c_spec LinkedListSpec.cnew LinkedListProps.session) = Some [10; 7; 8; 30; 99] /\
  exists s0, LinkedListModel.sys_new 0 = Some s0 /\
    option_map (fun s => length (LinkedListModel.hp (LinkedListModel.lst s))) (reach LinkedListModel.sys_step s0 LinkedListProps.session) = Some 9.
Proof. split; [reflexivity|]. eexists. split; reflexivity. Qed.
Example C80_linked_hash_map_case :
  let ops := [LinkedHashSpec.LPut 1 10; LinkedHashSpec.LPut 2 20; LinkedHashSpec.LPut 3 30; LinkedHashSpec.LRemove 2; LinkedHashSpec.LSetFront 3 31; LinkedHashSpec.LPut 4 40; LinkedHashSpec.LDelete 1] in
  (exists m0, LinkedHashModel.new 0 0 = Some m0 /\ option_map (fun m => length (LinkedHashModel.hp m)) (reach (LinkedHashModel.step Nat.eqb 0 0) m0 ops) = Some 6) /\
  sreach (LinkedHashSpec.lh_spec Nat.eqb) [] ops = [(3, 31); (4, 40)].
Proof. split; [eexists; split; reflexivity|reflexivity]. Qed.
Example C80_skip_list_case :
  let ops := [SkipSpec.KPut 5 50 2; SkipSpec.KPut 3 30 0; SkipSpec.KPut 9 90 4; SkipSpec.KRemove 5; SkipSpec.KPut 4 40 1; SkipSpec.KRemoveTail; SkipSpec.KPut 8 80 0]%nat in
  option_map (fun s => length (SkipModel.mem s)) (reach (SkipModel.sk_step (fun a b => Z.of_nat a - Z.of_nat b)%Z) (SkipModel.NewWithMaxLevel 8) ops) = Some 6 /\
  sreach (SkipSpec.sk_spec Nat.ltb) [] ops = [(3, 30); (4, 40); (8, 80)].
Proof. split; vm_compute; reflexivity. Qed.
Example C80_index_tree_case :
  let ops := map (fun k => IndexSpec.XPut k (Some k)) [4; 2; 6; 1; 3; 5; 7]%Z ++ [IndexSpec.XRemove 4; IndexSpec.XRemoveRange 5 6; IndexSpec.XTrim 2 9]%Z in
  IndexSpec.trims_in_range Z.ltb [] ops /\ sreach (IndexSpec.ix_spec Z.ltb) [] ops = [(2, Some 2); (3, Some 3); (7, Some 7)]%Z /\
  option_map (fun s => IndexHeapModel.next (fst s)) (reach (IndexHeapModel.hstep any 1 0%Z) (IndexHeapModel.new 0%Z) ops) = Some 8.
Proof. split; [vm_compute; intuition congruence|]. split; vm_compute; reflexivity. Qed.
Example C80_tree_list_case :
  let ops := map (fun k => TreelistSpec.TPut k k) [4; 2; 6; 1; 3; 5; 7]%Z ++ [TreelistSpec.TRemove 4; TreelistSpec.TTrim 20 30; TreelistSpec.TPut 8 8; TreelistSpec.TPut 9 9; TreelistSpec.TRemoveHead]%Z in
  TreelistProps.puts_work any ops /\ TreelistSpec.trims_inside Z.ltb [] ops /\ TreelistSpec.stale_run Z.ltb false [] ops = false /\
  sreach (TreelistSpec.tl_spec Z.ltb) [] ops = [(9, 9)]%Z /\
  option_map (fun m => IndexHeapModel.next (TreelistHeapModel.base m)) (reach (TreelistHeapModel.thstep any) (TreelistHeapModel.tnew 0%Z 0%Z) ops) = Some 10.
Proof. split; [apply TreelistProps.puts_checked; reflexivity|]. split; [vm_compute; intuition congruence|]. repeat split; vm_compute; reflexivity. Qed.
Example C80_circular_queue_case :
  let ops := map QueueSpec.QPushBack (seq 1 9) ++ repeat QueueSpec.QPopFront 2 ++ [QueueSpec.QPushFront 20] ++ repeat QueueSpec.QPopBack 3 in
  option_map (@ArrayQueueModel.data nat) (reach (ArrayQueueModel.step 0) (ArrayQueueModel.new 0) ops) = Some [20; 3; 4; 5; 6; 7; 0; 0; 0] /\
  sreach QueueSpec.queue_spec [] ops = [20; 3; 4; 5; 6].
Proof. split; vm_compute; reflexivity. Qed.
