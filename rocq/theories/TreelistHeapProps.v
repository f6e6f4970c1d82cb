(** tree/treelist: the nodes in memory (C70). *)
From Verif Require Import Base Bind Machine OrderSpec SMapSpec SMapFacts CompareModel AvlTree AvlSpec IndexSpec
  TreelistSpec TreelistModel TreelistLinks TreelistProofs TreelistSteps TreelistProps IndexModel
  IndexHeapModel IndexHeapProofs IndexHeapReadProofs IndexHeapRunProofs IndexHeapProps TreelistHeapModel TreelistHeapProofs TreelistHeapStepProofs.
From Verif Require IndexProps.
Local Open Scope Z_scope.

(** ** the thread, read off the memory *)
Section Thread.
  Context {K V : Type} (m : tmem K V) (root : nat).

  (** going from [p] by Direct[d] one meets the nodes [l], then nil *)
  Fixpoint follows (d : bool) (p : ptr) (l : list nat) : Prop :=
    match l with [] => p = None | a :: l => p = Some a /\ follows d (Direct m a d) l end.

  (** [l] are the nodes of the tree, each once; the thread runs through them forwards and backwards *)
  Record threaded (l : list nat) : Prop := {
    th_forth : follows true (Direct m root false) l;
    th_back : follows false (Direct m root true) (rev l);
    th_once : NoDup l;
    th_nodes : forall a, In a l <-> node_of (base m) root a }.
End Thread.

Section Proofs.
  Context {K V : Type}.
  Notation tmem := (tmem K V).

  Lemma follows_forth (m : tmem) (lk : TreelistModel.links) (l : list nat) : dirs (Direct m) lk ->
    (forall a x b, l = a ++ x :: b -> d lk x true = hd_error b) -> follows m true (addr (hd_error l)) (map S l).
  Proof.
    intros (Hd & _). induction l as [|x l IH]; intros H; [reflexivity|]. cbn [hd_error map follows addr option_map]. split; [reflexivity|].
    rewrite Hd, (H [] x l eq_refl). apply IH. intros a y b ->. apply (H (x :: a) y b eq_refl).
  Qed.
  Lemma follows_back (m : tmem) (lk : TreelistModel.links) (l : list nat) : dirs (Direct m) lk ->
    (forall a x b, l = a ++ x :: b -> d lk x false = last_error a) -> follows m false (addr (last_error l)) (rev (map S l)).
  Proof.
    intros (Hd & _). induction l as [|x l IH] using rev_ind; intros H; [reflexivity|]. rewrite map_app, rev_app_distr. cbn [map rev app follows].
    unfold last_error at 1. rewrite rev_app_distr. cbn [rev app hd_error addr option_map]. split; [reflexivity|].
    rewrite Hd, (H l x [] eq_refl). apply IH. intros a y b ->. apply (H a y (b ++ [x])). rewrite <- app_assoc. reflexivity.
  Qed.

  Lemma ids_addrs (b : mem K V) s a : In a (map S (ids (elems (view (tagged b) s)))) <-> In a (map (fun a => S (pred a)) (addrs s)).
  Proof.
    induction s as [|x l IHl r IHr]; [reflexivity|]. cbn [view elems addrs map]. rewrite ids_app, ids_cons, map_app. cbn [map fst snd].
    rewrite in_app_iff. cbn [In]. rewrite map_app, in_app_iff, <- IHl, <- IHr. change (fst (Value (tagged b) x)) with (pred x). tauto.
  Qed.
  Lemma pred_addrs s a : ~ In 0%nat (addrs s) -> In a (map (fun a => S (pred a)) (addrs s)) <-> In a (addrs s).
  Proof.
    intros H0. rewrite in_map_iff. split.
    - intros (x & <- & Hx). destruct x; [contradiction|exact Hx].
    - intros Ha. exists a. split; [|exact Ha]. destruct a; [contradiction|reflexivity].
  Qed.
  Lemma node_addr (b : mem K V) s a : ok b 0 [] s -> node_of b 0 a <-> In a (addrs s).
  Proof.
    intros O. split.
    - intros H. destruct (node_place b 0 s a O H) as (c & l & r & ->).
      apply (Permutation.Permutation_in _ (Permutation.Permutation_sym (addrs_plug c _))). apply in_or_app. right. left. reflexivity.
    - pose proof (ok_c _ _ _ _ O) as Hc. cbn [cok] in Hc. destruct Hc as (Hc & _). pose proof (ok_b _ _ _ _ O) as Hb. clear O.
      assert (H : forall x, body b x -> (forall y, pt x = Some y -> node_of b 0 y) -> In a (addrs x) -> node_of b 0 a).
      { clear s Hc Hb. induction x as [|y l IHl r IHr]; intros Hb Hx Ha; [destruct Ha|]. destruct Hb as (Kl & Kr & _ & _ & Bl & Br).
        pose proof (Hx y eq_refl) as Hy. destruct Ha as [<-|Ha]; [exact Hy|]. apply in_app_or in Ha as [Ha|Ha].
        - apply IHl; auto. intros z Hz. apply (kid_node b 0 y false z Hy). congruence.
        - apply IHr; auto. intros z Hz. apply (kid_node b 0 y true z Hy). congruence. }
      intros Ha. apply (H s Hb); [|exact Ha]. intros y Hy. apply top_node. congruence.
  Qed.

  Lemma entries_at (b : mem K V) s : ~ In 0%nat (addrs s) ->
    map (fun a => (Key b a, Value b a)) (map S (ids (elems (view (tagged b) s)))) = pk (elems (view (tagged b) s)).
  Proof.
    induction s as [|x l IHl r IHr]; intros H0; [reflexivity|]. cbn [addrs] in H0.
    assert (Nl : ~ In 0%nat (addrs l)) by (intros X; apply H0; right; apply in_or_app; auto).
    assert (Nr : ~ In 0%nat (addrs r)) by (intros X; apply H0; right; apply in_or_app; auto).
    assert (Nx : x <> 0%nat) by (intros X; apply H0; left; auto).
    cbn [view elems]. rewrite ids_app, ids_cons, pk_app, pk_cons, !map_app. cbn [map]. rewrite IHl, IHr by assumption.
    change (fst (snd (Key (tagged b) x, Value (tagged b) x))) with (pred x). destruct x; [congruence|]. reflexivity.
  Qed.
  Lemma sized_base (b : mem K V) x : sized (view (tagged b) x) -> sized (view b x).
  Proof.
    induction x as [|a l IHl r IHr]; [intros; exact I|]. cbn [view sized]. intros (H1 & H2 & H3).
    split; [|split; [apply IHl, H2|apply IHr, H3]]. rewrite (elems_base b l), (elems_base b r). unfold pk. rewrite !map_length. exact H1.
  Qed.
End Proofs.

Section Props.
  Context {K V : Type} (ltb : K -> K -> bool) (W : weak_order ltb) (cmp : K -> K -> Z) (Hcmp : plain_cmp ltb cmp) (zero : K) (zeroV : V).
  Notation thstep := (@thstep K V cmp).
  Notation tnew := (tnew zero zeroV).
  Notation new := (TreelistModel.new (K := K) (V := V)).
  Notation grown ops := (sreach (tl_step cmp) new ops).
  Notation content ops := (sreach (tl_spec ltb) (@nil (K * V)) ops).
  Notation stale ops := (stale_run ltb false (@nil (K * V)) ops).

  Lemma trun_ok (ops : list (tl_op K V)) : forall st m s M, trep m s -> TRel ltb st s M -> trims_inside ltb M ops ->
    (forall ops1 o ops2, ops = ops1 ++ o :: ops2 -> ~ put_fails o (snd (tl_step cmp (sreach (tl_step cmp) s ops1) o))) ->
    (exists m', reach thstep m ops = Some m' /\ trep m' (sreach (tl_step cmp) s ops)) /\
    (ends_ok ltb st M ops -> run thstep m ops = Some (srun (tl_step cmp) s ops)).
  Proof.
    induction ops as [|o ops IH]; intros st m s M Hr HR Ht Hp; [cbn; eauto|]. destruct Ht as (Ht1 & Ht2).
    destruct (s_step ltb W cmp Hcmp st m s M o Hr HR) as (m' & r & H1 & H2 & H3).
    destruct (step_ok ltb W cmp Hcmp st s M o HR Ht1 (Hp [] o ops eq_refl)) as (X1 & _).
    destruct (IH _ m' _ _ H2 X1 Ht2) as (Y1 & Y2); [intros ops1 o1 ops2 ->; apply (Hp (o :: ops1) o1 ops2 eq_refl)|].
    cbn [reach run srun sreach ends_ok]. rewrite H1. split; [exact Y1|]. intros (He1 & He2). rewrite (H3 He1).
    destruct (tl_step cmp s o) as (s', x). cbn [fst snd] in *. rewrite (Y2 He2). reflexivity.
  Qed.

  Section Run.
    Context (ops : list (tl_op K V)) (Hp : puts_work cmp ops) (Ht : trims_inside ltb [] ops).

    Lemma tgrown : exists m, reach thstep tnew ops = Some m /\ trep m (grown ops).
    Proof. apply (trun_ok ops false tnew new []); auto using trep_new, rel_start. Qed.

    (** The code working on nodes never loops, never runs into a nil pointer where the code of TreelistModel.v does not, and
        answers the same. *)
    Theorem C70_nodes_do_what_trees_do : ends_ok ltb false [] ops -> run thstep tnew ops = Some (srun (tl_step cmp) new ops).
    Proof. apply (trun_ok ops false tnew new []); auto using trep_new, rel_start. Qed.

    (** So does the next call, be it a Put that panics or a TrimByIndex that stops half way. *)
    Theorem C70_next_call_too (o : tl_op K V) : end_ok (stale ops) o ->
      exists m m', reach thstep tnew ops = Some m /\ thstep m o = Some (m', snd (tl_step cmp (grown ops) o)).
    Proof.
      intros He. destruct tgrown as (m & R & Q).
      destruct (s_step ltb W cmp Hcmp _ m _ _ o Q (grown_rel ltb W cmp Hcmp ops Hp Ht)) as (m' & r & H1 & H2 & H3).
      exists m, m'. split; [exact R|]. rewrite H1, (H3 He). reflexivity.
    Qed.

    (** Every answer is the one the sorted list of entries gives.  Full statement: for all [ops].  Missing: as in C36, where
        the code departs from it. *)
    Theorem C70_nodes_sorted_map_partial : ends_ok ltb false [] ops -> run thstep tnew ops = Some (srun (tl_spec ltb) [] ops).
    Proof.
      intros He. rewrite C70_nodes_do_what_trees_do by exact He. f_equal. apply (run_ok ltb W cmp Hcmp ops false new [] (rel_start ltb) Ht Hp). exact He.
    Qed.

    (** After the calls the nodes are well linked and their sizes right, and the package's own check (utils.go 947-984, that of
        the index tree) goes through.  Full statement: for all [ops].  Missing: after a Put that panicked and after a
        TrimByIndex that panicked half way. *)
    Theorem C70_nodes_well_linked_partial : exists m, reach thstep tnew ops = Some m /\ well_linked (base m) 0 /\ check 0 (base m) = true.
    Proof.
      destruct tgrown as (m & R & Q). exists m. split; [exact R|].
      pose proof (grown_rel ltb W cmp Hcmp ops Hp Ht) as (_ & Hz & _). pose proof (tr_tree _ _ Q) as (x & O & Hv).
      assert (Hz' : sized (view (base m) x)).
      { apply sized_base. rewrite Hv. exact Hz. }
      assert (Hrep : rep (base m) 0 (view (base m) x)) by (exists x; split; [apply ok_base, O|reflexivity]).
      split; [exact (linked (base m) 0 _ Hrep Hz')|exact (check_ok (base m) 0 _ Hrep Hz')].
    Qed.

    (** The Direct pointers run through the nodes of the tree, first to last and back, in the order of the keys.  Full
        statement: for all [ops].  Missing: the same, and after a Trim that kept nothing. *)
    Theorem C70_nodes_threaded_partial : stale ops = false ->
      exists m l, reach thstep tnew ops = Some m /\ threaded m 0 l /\ map (fun a => (Key (base m) a, Value (base m) a)) l = content ops.
    Proof.
      intros Hs. destruct tgrown as (m & R & Q). pose proof (grown_rel ltb W cmp Hcmp ops Hp Ht) as HR. rewrite Hs in HR.
      pose proof HR as (Ee & _ & _ & Hn & _ & HL & _). destruct (HL eq_refl) as (L1 & L2 & L3). pose proof (tr_dirs _ _ Q) as Hd.
      pose proof (tr_tree _ _ Q) as (x & O & Hv). pose proof (root_zero _ _ O) as H0.
      exists m, (map S (ids (elems (TreelistModel.top (grown ops))))). split; [exact R|]. split.
      - constructor.
        + rewrite (proj2 Hd), L1. apply (follows_forth m (lks (grown ops))); [exact Hd|]. intros a y b Eq. apply (L3 a y b Eq).
        + rewrite (proj2 Hd), L2. apply (follows_back m (lks (grown ops))); [exact Hd|]. intros a y b Eq. apply (L3 a y b Eq).
        + apply FinFun.Injective_map_NoDup; [|exact Hn]. intros a b Eq. congruence.
        + intros a. rewrite <- Hv, ids_addrs, pred_addrs by exact H0. symmetry. apply node_addr. apply ok_base, O.
      - rewrite <- Ee, <- Hv. apply entries_at, H0.
    Qed.
  End Run.

  (** As long as there are no more than 63 entries, nothing is said about Puts. *)
  Theorem C70_small_sorted_map_partial (ops : list (tl_op K V)) : trims_inside ltb [] ops -> ends_ok ltb false [] ops ->
    (forall ops1 ops2, ops = ops1 ++ ops2 -> len (content ops1) <= 63) -> run thstep tnew ops = Some (srun (tl_spec ltb) [] ops).
  Proof.
    intros Ht He Hn. apply C70_nodes_sorted_map_partial; auto.
    destruct (first_failure cmp ops) as [H|(ops1 & o & ops2 & -> & H1 & H2)]; [exact H|].
    exfalso. apply trims_prefix in Ht. pose proof (grown_rel ltb W cmp Hcmp ops1 H1 Ht) as HR.
    pose proof (step_low ltb W cmp Hcmp _ _ _ o HR H2) as X. destruct HR as (Y & _).
    specialize (Hn ops1 (o :: ops2) eq_refl). rewrite <- Y, pk_len in Hn. pose proof (ht_len (TreelistModel.top (grown ops1))). unfold len in *. lia.
  Qed.
End Props.
Print Assumptions C70_nodes_do_what_trees_do.
Print Assumptions C70_next_call_too.
Print Assumptions C70_nodes_sorted_map_partial.
Print Assumptions C70_nodes_well_linked_partial.
Print Assumptions C70_nodes_threaded_partial.
Print Assumptions C70_small_sorted_map_partial.

(** ** where that ends *)
Notation ztheap := (thstep (V := Z) any).
Notation ztnew := (tnew 0 0).
(** After a Trim that keeps nothing Head and Tail answer with entries that are gone, next to a Size of 0; RemoveHead does not,
    and the next Put puts the ends right. *)
Theorem C70_head_after_trim_refuted : exists ops, trims_inside Z.ltb [] ops /\ puts_work any ops /\
  run ztheap ztnew ops = Some [TBool true; TBool true; TUnit; TNum 0; TSlice (Some (1, 10)); TSlice (Some (2, 20)); TSlice None; TBool true; TSlice (Some (7, 70)); TSlice (Some (7, 70))] /\
  nth 4 (srun (tl_spec Z.ltb) [] ops) TUnit = TSlice None.
Proof.
  exists [TPut 1 10; TPut 2 20; TTrim 5 6; TSize; THead; TTail; TRemoveHead; TPut 7 70; THead; TTail]. split; [cbn; auto 12|].
  split; [apply puts_checked; reflexivity|]. split; reflexivity.
Qed.
(** A TrimByIndex that panics because of its upper bound leaves a node whose size is not that of its children. *)
Theorem C70_nodes_well_linked_refuted : exists ops m, reach ztheap ztnew ops = Some m /\ ~ well_linked (base m) 0 /\ check 0 (base m) = false.
Proof.
  set (ops := tputs [1; 2; 3; 4; 5; 6; 7] ++ [TTrimByIndex 5 9]).
  exists ops. destruct (reach ztheap ztnew ops) as [m|] eqn:Er; [|vm_compute in Er; discriminate].
  exists m. split; [reflexivity|].
  assert (H : option_map (fun m => (check 0 (base m), Children (base m) 0 false, (Children (base m) 4 false, Children (base m) 4 true), map (Size (base m)) [2; 4; 6]))%nat
                         (reach ztheap ztnew ops) = Some (false, Some 4%nat, (Some 2%nat, Some 6%nat), [3; 7; 2])) by (vm_compute; reflexivity).
  rewrite Er in H. cbn [option_map map] in H. injection H as H1 H2 H3 H4 H5 H6 H7. split; [|exact H1].
  intros X. pose proof (wl_size _ _ X 4 (top_node _ _ _ H2)) as Y. rewrite H3, H4 in Y. cbn [sz] in Y. rewrite H5, H6, H7 in Y. discriminate.
Qed.
Print Assumptions C70_head_after_trim_refuted.
Print Assumptions C70_nodes_well_linked_refuted.

(** ** examples *)
(** every call once, with rotations, removals with one and two children, a merged range and cuts on both sides *)
Definition th_ops : list (tl_op Z Z) := tl_ops ++ tputs (map Z.of_nat (seq 3 40) ++ map (fun i => - Z.of_nat i) (seq 1 15)) ++
  [TRemove 12; TRemoveIndex 30; TRemoveRange 3 17; TTrim (-12) 35; TRemoveRangeByIndex 18 20; TTrimByIndex 2 24; TRemoveHead; TRemoveTail; THead; TTail; TIndexOf 2; TSize].
Example C70_case : trims_inside Z.ltb [] th_ops /\ ends_ok Z.ltb false [] th_ops /\ puts_work any th_ops /\
  option_map (skipn 105) (run ztheap ztnew th_ops) = Some
    [TSlice (Some (12, 120)); TSlice (Some (18, 180)); TBool true; TUnit; TUnit; TUnit; TSlice (Some (-10, -100)); TSlice (Some (33, 330));
     TSlice (Some (-9, -90)); TSlice (Some (32, 320)); TNum 9; TNum 21].
Proof.
  split; [vm_compute; intuition congruence|]. split; [vm_compute; intuition congruence|]. split; [apply puts_checked; vm_compute; reflexivity|]. vm_compute. reflexivity.
Qed.
(** the thread they leave, from one node to the next: 21 nodes at addresses that are not in order *)
Example C70_thread_case : stale_run Z.ltb false [] th_ops = false /\
  let walk := fix walk n m p := match n, p with S n, Some a => a :: walk n m (Direct m a true) | _, _ => [] end in
  option_map (fun m => map (fun a => (a, Key (base m) a)) (walk 100%nat m (Direct m 0%nat false))) (reach ztheap ztnew th_ops) = Some
    (combine [63; 62; 61; 60; 59; 58; 57; 56; 55; 14; 31; 32; 33; 34; 35; 39; 40; 41; 42; 43; 45]%nat
             [-9; -8; -7; -6; -5; -4; -3; -2; -1; 2; 19; 20; 21; 22; 23; 27; 28; 29; 30; 31; 32]).
Proof. split; [vm_compute; reflexivity|]. vm_compute. reflexivity. Qed.
