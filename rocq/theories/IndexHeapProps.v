(** tree/indextree: the nodes in memory (C63). *)
From Verif Require Import Base Bind Machine OrderSpec SMapSpec CompareModel AvlTree AvlSpec IndexSpec IndexModel IndexHeapModel IndexHeapProofs IndexHeapReadProofs IndexHeapRunProofs.
From Verif Require IndexProofs IndexProps.
Local Open Scope Z_scope.

(** ** what well-linked nodes are, read off the memory *)
Section Links.
  Context {K V : Type} (m : mem K V) (root : nat).

  (** the nodes of the tree: those reached from tree.root by Children *)
  Inductive node_of : nat -> Prop :=
  | top_node a : Children m root false = Some a -> node_of a
  | kid_node a d b : node_of a -> Children m a d = Some b -> node_of b.

  (** [climbs n a]: going up by Parent [n] times from [a] leads to tree.root *)
  Fixpoint climbs (n : nat) (a : nat) : Prop :=
    match n with O => a = root | S n => exists b, Parent m a = Some b /\ climbs n b end.

  (** size of what a pointer leads to *)
  Definition sz (p : ptr) : Z := match p with None => 0 | Some a => Size m a end.

  Record well_linked : Prop := {
    wl_top : forall a, Children m root false = Some a -> Parent m a = Some root;
    wl_kid : forall a d b, node_of a -> Children m a d = Some b -> Parent m b = Some a;
    wl_one : forall a b, node_of a -> Children m a false = Some b -> Children m a true <> Some b;
    wl_root : ~ node_of root;
    wl_climb : forall a, node_of a -> exists n, climbs n a;
    wl_size : forall a, node_of a -> Size m a = sz (Children m a false) + sz (Children m a true) + 1 }.
End Links.

Section Proofs.
  Context {K V : Type}.
  Implicit Types m : mem K V.

  Lemma node_place m root s a : ok m root [] s -> node_of m root a -> exists c l r, s = plug c (B a l r).
  Proof.
    intros O H. induction H as [a H|a d b H IH Hk].
    - pose proof (ok_c _ _ _ _ O) as Hc. cbn [cok] in Hc. destruct Hc as (Hc & _). rewrite H in Hc. destruct s as [|b l r]; [discriminate|].
      injection Hc as <-. exists [], l, r. reflexivity.
    - destruct IH as (c & l & r & ->). pose proof (proj2 (ok_plug _ _ _ _) O) as O1. pose proof (ok_b _ _ _ _ O1) as (Kl & Kr & _). destruct d.
      + rewrite Kr in Hk. destruct r as [|b' x y]; [discriminate|]. injection Hk as ->. exists ((a, true, l) :: c), x, y. reflexivity.
      + rewrite Kl in Hk. destruct l as [|b' x y]; [discriminate|]. injection Hk as ->. exists ((a, false, r) :: c), x, y. reflexivity.
  Qed.
  Lemma cok_climbs m root c x a : cok m root c x -> Parent m a = Some (top root c) -> exists n, climbs m root n a.
  Proof.
    revert x a. induction c as [|((b, d), y) c IH]; intros x a H Hp; cbn [top cok] in *.
    - exists 1%nat, root. split; [exact Hp|reflexivity].
    - destruct H as (_ & _ & _ & _ & Hb & Hc). destruct (IH _ b Hc Hb) as (n & Hn). exists (S n), b. auto.
  Qed.
  Lemma sized_plug m c : forall s, sized (view m (plug c s)) -> sized (view m s).
  Proof.
    induction c as [|((a, d), y) c IH]; intros s H; [exact H|]. cbn [plug] in H. apply IH in H. rewrite view_nd in H. destruct d; cbn [tnd sized] in H; tauto.
  Qed.
  Lemma sz_len m s : sized (view m s) -> sz m (pt s) = Z.of_nat (length (elems (view m s))).
  Proof. destruct s as [|b x y]; [reflexivity|]. cbn [pt sz view sized elems]. rewrite app_length. cbn [length]. lia. Qed.

  Lemma linked m root t : rep m root t -> sized t -> well_linked m root.
  Proof.
    intros (s & O & <-) Hz. pose proof (ok_c _ _ _ _ O) as Hc. pose proof (ok_h _ _ _ _ O) as Hh. cbn [cok] in Hc. destruct Hc as (Hc & _).
    constructor.
    - intros a H. rewrite Hc in H. destruct s as [|b x y]; [discriminate|]. injection H as ->. exact Hh.
    - intros a d b Ha Hk. destruct (node_place m root s a O Ha) as (c & l & r & ->). pose proof (proj2 (ok_plug _ _ _ _) O) as O1.
      pose proof (ok_b _ _ _ _ O1) as (Kl & Kr & Pl & Pr & _). destruct d.
      + rewrite Kr in Hk. destruct r as [|b' x y]; [discriminate|]. injection Hk as ->. exact Pr.
      + rewrite Kl in Hk. destruct l as [|b' x y]; [discriminate|]. injection Hk as ->. exact Pl.
    - intros a b Ha Hk Hk2. destruct (node_place m root s a O Ha) as (c & l & r & ->). pose proof (proj2 (ok_plug _ _ _ _) O) as O1.
      pose proof (ok_b _ _ _ _ O1) as (Kl & Kr & _). rewrite Kl in Hk. rewrite Kr in Hk2.
      pose proof (ok_n _ _ _ _ O1) as Hn. apply NoDup_cons_iff in Hn as (_ & Hn). apply nodup_app in Hn as (_ & Hn & _). cbn [addrs] in Hn.
      apply NoDup_cons_iff in Hn as (_ & Hn). apply nodup_app in Hn as (_ & _ & Hn).
      destruct l as [|b1 ? ?]; [discriminate|]. destruct r as [|b2 ? ?]; [discriminate|]. cbn [pt] in *. injection Hk as ->. injection Hk2 as ->.
      apply (Hn b); left; reflexivity.
    - intros Ha. destruct (node_place m root s root O Ha) as (c & l & r & ->). pose proof (proj2 (ok_plug _ _ _ _) O) as O1.
      pose proof (ok_n _ _ _ _ O1) as Hn. apply NoDup_cons_iff in Hn as (Hn & _). apply Hn, in_or_app. right. left. reflexivity.
    - intros a Ha. destruct (node_place m root s a O Ha) as (c & l & r & ->). pose proof (proj2 (ok_plug _ _ _ _) O) as O1.
      exact (cok_climbs m root c _ a (ok_c _ _ _ _ O1) (ok_h _ _ _ _ O1)).
    - intros a Ha. destruct (node_place m root s a O Ha) as (c & l & r & ->). pose proof (proj2 (ok_plug _ _ _ _) O) as O1.
      pose proof (ok_b _ _ _ _ O1) as (Kl & Kr & _). apply sized_plug in Hz. cbn [view sized] in Hz. rewrite Kl, Kr, !sz_len; tauto.
  Qed.
End Proofs.

Section Props.
  Context {K A : Type} (ltb : K -> K -> bool) (W : weak_order ltb) (cmp : K -> K -> Z) (Hcmp : plain_cmp ltb cmp)
          (shift : Z) (Hsh : 0 <= shift) (zero : K).
  Notation hstep := (@hstep K A cmp shift zero).
  Notation new := (@new K A zero).

  Lemma run_new (ops : list (ix_op K A)) : trims_in_range ltb [] ops ->
    run hstep new ops = Some (srun (IndexModel.step cmp shift) E ops) /\
    exists m r, reach hstep new ops = Some (m, r) /\ rep m r (sreach (IndexModel.step cmp shift) E ops).
  Proof. intros H. exact (hrun_ok ltb W cmp Hcmp shift Hsh zero ops _ _ _ _ (rep_new zero) (IndexProofs.xrel_new ltb) H). Qed.

  (** The code working on nodes never loops, never runs into a nil pointer where the code of IndexModel.v does not, and
      answers the same. *)
  Theorem C63_nodes_do_what_trees_do (ops : list (ix_op K A)) : trims_in_range ltb [] ops ->
    run hstep new ops = Some (srun (IndexModel.step cmp shift) E ops).
  Proof. intros H. apply (run_new ops H). Qed.

  (** Every answer is the one the sorted list of entries gives.  Full statement: for all [ops].  Missing: as in C30, where
      the code departs from it. *)
  Theorem C63_nodes_sorted_map_partial (ops : list (ix_op K A)) : trims_in_range ltb [] ops -> all_answered ltb [] ops ->
    run hstep new ops = Some (srun (ix_spec ltb) [] ops).
  Proof.
    intros H1 H2. rewrite C63_nodes_do_what_trees_do by exact H1. f_equal.
    apply (IndexProps.C30_indextree_sorted_map_partial ltb W cmp Hcmp shift Hsh ops H1 H2).
  Qed.

  (** After the calls the nodes are well linked and their sizes right, and the package's own check goes through.  Full
      statement: for all [ops].  Missing: after a TrimByIndex that panicked half way. *)
  Theorem C63_nodes_well_linked_partial (ops : list (ix_op K A)) : trims_in_range ltb [] ops ->
    exists m r, reach hstep new ops = Some (m, r) /\ well_linked m r /\ check r m = true.
  Proof.
    intros H. destruct (run_new ops H) as (_ & m & r & R & Q).
    pose proof (IndexProps.C31_sizes_exact_partial ltb W cmp Hcmp shift Hsh ops H) as Hz.
    exists m, r. split; [exact R|]. split; [exact (linked m r _ Q Hz)|exact (check_ok m r _ Q Hz)].
  Qed.
End Props.
Print Assumptions C63_nodes_do_what_trees_do.
Print Assumptions C63_nodes_sorted_map_partial.
Print Assumptions C63_nodes_well_linked_partial.

(** ** where that ends *)
Notation zheap := (hstep (A := Z) any 2 0).
Notation znew := (new (A := Z) 0).
Definition cut_short : list (ix_op Z Z) := IndexProps.xputs [1; 2; 3; 4; 5; 6; 7] ++ [XTrimByIndex 5 9].
(** A TrimByIndex that panics because of its upper bound leaves a node whose size is not that of its children. *)
Theorem C63_nodes_well_linked_refuted : exists ops m r, reach zheap znew ops = Some (m, r) /\ ~ well_linked m r /\ check r m = false.
Proof.
  exists cut_short. destruct (reach zheap znew cut_short) as [(m, r)|] eqn:Er; [|vm_compute in Er; discriminate].
  exists m, r. split; [reflexivity|].
  assert (H : option_map (fun s => (snd s, check (snd s) (fst s), Children (fst s) 0 false, (Children (fst s) 4 false, Children (fst s) 4 true), map (Size (fst s)) [2; 4; 6]))%nat
                         (reach zheap znew cut_short) = Some (0%nat, false, Some 4%nat, (Some 2%nat, Some 6%nat), [3; 7; 2])) by (vm_compute; reflexivity).
  rewrite Er in H. cbn [option_map fst snd map] in H. injection H as -> H1 H2 H3 H4 H5 H6 H7. split; [|exact H1].
  intros X. pose proof (wl_size _ _ X 4 (top_node _ _ _ H2)) as Y. rewrite H3, H4 in Y. cbn [sz] in Y. rewrite H5, H6, H7 in Y. discriminate.
Qed.
Print Assumptions C63_nodes_well_linked_refuted.

(** ** examples *)
(** insertions with rotations, removals with one and two children, a merged range, cuts on both sides and a split *)
Example C63_case : let ops := IndexProps.ix_ops ++ IndexProps.xputs (map Z.of_nat (seq 0 40) ++ map (fun i => - Z.of_nat i) (seq 1 20)) ++
    [XRemove 12; XRemoveIndex 30; XRemoveRange 3 17; XTrim (-15) 35; XRemoveRangeByIndex 20 23; XTrimByIndex 2 28; XSplit true false 20; XIndexOf 2; XSize] in
  trims_in_range Z.ltb [] ops /\
  option_map (skipn 92) (run zheap znew ops) = Some
    [XVal (Some 12); XVal (Some 10); XUnit; XUnit; XUnit; XUnit; XOther (map (fun k => (k, Some k)) [24; 25; 26; 27; 28; 29; 30; 31; 32]); XNum 15; XNum 18].
Proof. cbv zeta. split; [vm_compute; intuition congruence|vm_compute; reflexivity]. Qed.
(** after them there are nodes to be linked: the topmost has two children *)
Example C63_case_linked : let ops := IndexProps.xputs (map Z.of_nat (seq 0 40)) ++ [XRemove 12; XRemoveRange 3 17; XSplit true false 20] in
  option_map (fun s => let m := fst s in match Children m (snd s) false with
                       | Some a => (Size m a, map (fun d => option_map (Size m) (Children m a d)) [false; true], eqp (Parent m a) (Some (snd s)))
                       | None => (0, [], false) end) (reach zheap znew ops) = Some (6, [Some 4; Some 1], true).
Proof. vm_compute. reflexivity. Qed.
