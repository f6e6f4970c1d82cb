(** tree/treelist: lists and the results of set operations share no nodes (C75). *)
From Verif Require Import Base Bind Machine OrderSpec SMapSpec SMapFacts CompareModel AvlTree AvlSpec IndexSpec IndexPoolSpec
  TreelistSpec TreelistModel TreelistLinks TreelistProofs TreelistSteps TreelistProps IndexModel
  IndexHeapModel IndexHeapProofs IndexHeapReadProofs IndexHeapRunProofs IndexHeapProps TreelistPoolSpec TreelistHeapModel TreelistHeapProofs TreelistHeapStepProofs TreelistHeapProps
  TreelistPoolModel TreelistMoveProofs TreelistPoolMoveProofs TreelistPoolBuildProofs TreelistPoolProofs.
Local Open Scope Z_scope.

(** ** the nodes of a list, with those it has removed but still points to *)
Section Nodes.
  Context {K V : Type} (m : tmem K V).
  Inductive belongs (root : nat) : nat -> Prop :=
  | its_root : belongs root root
  | its_parent a b : belongs root a -> Parent (base m) a = Some b -> belongs root b
  | its_child a d b : belongs root a -> Children (base m) a d = Some b -> belongs root b
  | its_next a d b : belongs root a -> Direct m a d = Some b -> belongs root b.
End Nodes.
Definition unchanged {K V : Type} (m m' : tmem K V) (a : nat) : Prop :=
  Parent (base m') a = Parent (base m) a /\ (forall d, Children (base m') a d = Children (base m) a d) /\ (forall d, Direct m' a d = Direct m a d) /\
  Size (base m') a = Size (base m) a /\ Balance (base m') a = Balance (base m) a /\ Key (base m') a = Key (base m) a /\ Value (base m') a = Value (base m) a.
Definition called_on {K V : Type} (o : lp_op K V) : option nat := match o with LOn i _ => Some i | _ => None end.

Section Proofs.
  Context {K V : Type}.
  Implicit Types (m g : tmem K V).
  Lemma belongs_in phi m g r a : tmoved phi m g -> nth_error phi 0 = Some r -> belongs g r a -> In a phi.
  Proof.
    intros [Hb Hd] Hr. enough (H : belongs g r a -> exists c, nth_error phi c = Some a) by (intros X; destruct (H X) as (c & Hc); exact (nth_error_In _ _ Hc)).
    induction 1 as [|b b' H (c & IH) E0|b d b' H (c & IH) E0|b d b' H (c & IH) E0].
    - eauto.
    - destruct (pp_some phi _ _ b' (mv_parent _ _ _ Hb c b IH) E0) as (c' & _ & X). eauto.
    - destruct (pp_some phi _ _ b' (mv_kid _ _ _ Hb c b d IH) E0) as (c' & _ & X). eauto.
    - destruct (pp_some phi _ _ b' (Hd c b d IH) E0) as (c' & _ & X). eauto.
  Qed.
  Lemma same_all g g' a : same_tnode g g' a -> unchanged g g' a.
  Proof. intros ((H1 & H2 & H3 & H4 & H5 & H6) & H7). unfold unchanged. auto 10. Qed.
  Lemma belongs_kept g g' r a : (forall b, belongs g r b -> unchanged g g' b) -> belongs g r a -> belongs g' r a.
  Proof.
    intros H. induction 1 as [|b b' Hb IH E0|b d b' Hb IH E0|b d b' Hb IH E0]; [constructor|..]; destruct (H b Hb) as (X1 & X2 & X3 & _).
    - apply (its_parent g' r b); [exact IH|congruence].
    - apply (its_child g' r b d); [exact IH|rewrite X2; exact E0].
    - apply (its_next g' r b d); [exact IH|rewrite X3; exact E0].
  Qed.
  Lemma belongs_back g g' r a : (forall b, belongs g r b -> unchanged g g' b) -> belongs g' r a -> belongs g r a.
  Proof.
    intros H. induction 1 as [|b b' Hb IH E0|b d b' Hb IH E0|b d b' Hb IH E0]; [constructor|..]; destruct (H b IH) as (X1 & X2 & X3 & _).
    - apply (its_parent g r b); [exact IH|congruence].
    - apply (its_child g r b d); [exact IH|rewrite <- X2; exact E0].
    - apply (its_next g r b d); [exact IH|rewrite <- X3; exact E0].
  Qed.
End Proofs.

Section Props.
  Context {K V : Type} (ltb : K -> K -> bool) (W : weak_order ltb) (cmp : K -> K -> Z) (Hcmp : plain_cmp ltb cmp) (zero : K) (zeroV : V).
  Notation lpstep := (lpstep cmp zero zeroV).
  Notation lpool0 := (lpool0 zero zeroV).
  Notation lapart := (lapart cmp zero zeroV).
  Implicit Types (ops : list (lp_op K V)).

  (** Lists in one memory answer as lists each in a memory of its own: also after a panic, with stale ends, and whatever the
      comparison function does. *)
  Theorem C75_lists_apart ops l : run lapart [] ops = Some l -> run lpstep lpool0 ops = Some l.
  Proof. apply (pool_run cmp zero zeroV ops [] []), prel_start. Qed.

  (** No call on one list changes a field of a node of another, or of one the other still points to; a set operation changes
      no list there is. *)
  Theorem C75_other_lists_untouched ops o ms ms' x : reach lapart [] ops = Some ms -> lapart ms o = Some (ms', x) ->
    exists m rs m' rs', reach lpstep lpool0 ops = Some (m, rs) /\ lpstep (m, rs) o = Some ((m', rs'), x) /\
      forall j r, nth_error rs j = Some r -> called_on o <> Some j ->
        nth_error rs' j = Some r /\ (forall a, belongs m' r a <-> belongs m r a) /\ (forall a, belongs m r a -> unchanged m m' a).
  Proof.
    intros H1 H2. destruct (pool_reach cmp zero zeroV ops [] [] _ [] ms (prel_start zero zeroV) H1) as (phis & g & rs & R & HP).
    destruct (pool_step cmp zero zeroV phis ms g rs o ms' x HP H2) as (phis' & g' & rs' & S & HP' & HK). exists g, rs, g', rs'. split; [exact R|]. split; [exact S|].
    intros j r Hj Ho. destruct HP as [L1 L2 L3 L4], HP' as [L1' L2' L3' L4'].
    destruct (nth_has rs ms j r L2 Hj) as (m & Em). destruct (nth_has ms phis j m (eq_sym L1) Em) as (phi & Ep).
    destruct (HK j phi Ep) as (Ep' & Hs); [intros c ->; apply Ho; reflexivity|]. destruct (L3 j phi m r Ep Em Hj) as (Hm & Hr).
    destruct (nth_has phis' ms' j phi L1' Ep') as (m' & Em'). destruct (nth_has ms' rs' j m' (eq_sym L2') Em') as (r' & Er').
    destruct (L3' j phi m' r' Ep' Em' Er') as (_ & Hr'). rewrite Hr in Hr'. injection Hr' as <-.
    assert (Hu : forall a, belongs g r a -> unchanged g g' a) by (intros a Ha; apply same_all, Hs, (belongs_in phi m g r); assumption).
    split; [exact Er'|]. split; [|exact Hu]. intros a. split; [apply belongs_back, Hu|apply belongs_kept, Hu].
  Qed.

  (** No node is in two lists, or in one and still pointed to by another. *)
  Theorem C75_no_shared_nodes ops ms : reach lapart [] ops = Some ms ->
    exists m rs, reach lpstep lpool0 ops = Some (m, rs) /\ length rs = length ms /\
      forall i j r1 r2 a, nth_error rs i = Some r1 -> nth_error rs j = Some r2 -> i <> j -> belongs m r1 a -> ~ belongs m r2 a.
  Proof.
    intros H. destruct (pool_reach cmp zero zeroV ops [] [] _ [] ms (prel_start zero zeroV) H) as (phis & g & rs & R & [L1 L2 L3 L4]). exists g, rs.
    split; [exact R|]. split; [exact L2|]. intros i j r1 r2 a Hi Hj Hij A1 A2.
    destruct (nth_has rs ms i r1 L2 Hi) as (m1 & E1). destruct (nth_has ms phis i m1 (eq_sym L1) E1) as (phi1 & P1).
    destruct (nth_has rs ms j r2 L2 Hj) as (m2 & E2). destruct (nth_has ms phis j m2 (eq_sym L1) E2) as (phi2 & P2).
    destruct (L3 i phi1 m1 r1 P1 E1 Hi) as (M1 & R1). destruct (L3 j phi2 m2 r2 P2 E2 Hj) as (M2 & R2).
    exact (L4 i j phi1 phi2 Hij P1 P2 a (belongs_in _ _ _ _ _ M1 R1 A1) (belongs_in _ _ _ _ _ M2 R2 A2)).
  Qed.

  Section Run.
    Context (ops : list (lp_op K V)) (Hc : calls_fine ltb [] [] ops).
    Notation content := (sreach (lp_spec ltb) (@nil (list (K * V))) ops).

    (** Each list answers as a sorted list of entries that no call on another changes, and set operations give the lists they
        should.  Full statement: for all [ops].  Missing: where the code for one list departs from it (C36), set operations
        on a list with stale ends, and what comes after a Put that panicked. *)
    Theorem C75_lists_sorted_maps_partial :
      (forall ops1 o ops2 l x, ops = ops1 ++ o :: ops2 -> run lpstep lpool0 (ops1 ++ [o]) = Some (l ++ [x]) -> ~ put_panics o x) ->
      run lpstep lpool0 ops = Some (srun (lp_spec ltb) [] ops).
    Proof.
      intros Hp. pose proof (fine_seen cmp zero zeroV ops [] [] _ [] (prel_start zero zeroV) Hp) as Hf.
      apply (both_run ltb W cmp Hcmp zero zeroV ops [] [] [] [] _ [] (prel_start zero zeroV) (held_start ltb) Hc Hf).
    Qed.

    Context (Hs : lists_small ltb [] ops).
    Lemma small_run : run lpstep lpool0 ops = Some (srun (lp_spec ltb) [] ops) /\
      exists phis ms m rs, reach lpstep lpool0 ops = Some (m, rs) /\ prel phis ms m rs /\ held ltb (flags_run ltb [] [] ops) ms content.
    Proof.
      exact (both_run ltb W cmp Hcmp zero zeroV ops [] [] [] [] _ [] (prel_start zero zeroV) (held_start ltb) Hc
        (fine_small ltb W cmp Hcmp zero zeroV ops [] [] [] (held_start ltb) Hc Hs)).
    Qed.
    (** As long as no list has more than 63 entries, nothing is said about Puts. *)
    Theorem C75_small_lists_sorted_maps_partial : run lpstep lpool0 ops = Some (srun (lp_spec ltb) [] ops).
    Proof. apply small_run. Qed.

    (** All of them, results of set operations too, are well linked and pass the package's own check.  Full statement: for
        all [ops].  Missing: as above, and more than 63 entries. *)
    Theorem C75_lists_well_linked_partial : exists m rs, reach lpstep lpool0 ops = Some (m, rs) /\ length rs = length content /\
      forall r, In r rs -> well_linked (base m) r /\ check r (base m) = true.
    Proof.
      destruct small_run as (_ & phis & ms & g & rs & R & [L1 L2 L3 L4] & [H1 H2 H3]). exists g, rs. split; [exact R|]. split; [congruence|].
      intros r Hr. apply In_nth_error in Hr as (i & Hi). destruct (nth_has rs ms i r L2 Hi) as (m & Em). destruct (nth_has ms phis i m (eq_sym L1) Em) as (phi & Ep).
      destruct (nth_has ms _ i m (eq_sym H1) Em) as (f & Ef). destruct (nth_has ms _ i m (eq_sym H2) Em) as (M & EM).
      destruct (L3 i phi m r Ep Em Hi) as (Hm & Hr). destruct (H3 i f m M Ef Em EM) as (s & T & (_ & Hz & _)). destruct (tr_tree _ _ T) as (x & O & Hv).
      assert (Hz' : sized (view (base m) x)) by (apply sized_base; rewrite Hv; exact Hz).
      pose proof (ok_base _ _ _ _ O) as O'. pose proof (ok_msh phi m g r Hm Hr x O') as O2.
      assert (Hrep : rep (base g) r (view (base m) x)).
      { exists (msh phi x). split; [exact O2|]. apply view_msh; [exact Hm|]. intros a Ha. apply (ok_l _ _ _ _ O'). right. exact Ha. }
      split; [exact (linked (base g) r _ Hrep Hz')|exact (check_ok (base g) r _ Hrep Hz')].
    Qed.

    (** The Direct pointers of each run through its nodes, first to last and back, in the order of the keys.  Full statement:
        for all [ops].  Missing: the same, and lists with stale ends. *)
    Theorem C75_lists_threaded_partial : exists m rs, reach lpstep lpool0 ops = Some (m, rs) /\
      forall i r e, nth_error rs i = Some r -> nth_error content i = Some e -> nth_error (flags_run ltb [] [] ops) i = Some false ->
        exists l, threaded m r l /\ map (fun a => (Key (base m) a, Value (base m) a)) l = e.
    Proof.
      destruct small_run as (_ & phis & ms & g & rs & R & [L1 L2 L3 L4] & [H1 H2 H3]). exists g, rs. split; [exact R|].
      intros i r M Hi EM Ef. destruct (nth_has rs ms i r L2 Hi) as (m & Em). destruct (nth_has ms phis i m (eq_sym L1) Em) as (phi & Ep).
      destruct (L3 i phi m r Ep Em Hi) as (Hm & Hr). destruct (H3 i false m M Ef Em EM) as (s & T & HR).
      pose proof HR as (Ee & _ & _ & Hn & _ & HL & _). destruct (HL eq_refl) as (K1 & K2 & K3). pose proof (tr_dirs _ _ T) as Hd.
      destruct (tr_tree _ _ T) as (x & O & Hv). pose proof (root_zero _ _ O) as H0. pose proof (ok_base _ _ _ _ O) as O'.
      set (l := map S (ids (elems (TreelistModel.top s)))).
      assert (Hl : forall a, In a l <-> node_of (base m) 0 a).
      { intros a. unfold l. rewrite <- Hv, ids_addrs, pred_addrs by exact H0. symmetry. apply node_addr, O'. }
      assert (Hlt : forall a, In a l -> nth_error phi a = Some (at_phi phi a)).
      { intros a Ha. apply (phi_at phi m g Hm). apply (ok_l _ _ _ _ O'). right. apply Hl in Ha. apply (node_addr _ _ _ O'), Ha. }
      assert (N : NoDup l) by (apply FinFun.Injective_map_NoDup; [intros a b Eq; congruence|exact Hn]).
      exists (map (at_phi phi) l). split.
      - constructor.
        + apply (follows_seen phi m g Hm) with (p := Direct m 0%nat false); [apply (tm_dir _ _ _ Hm), Hr|]. rewrite (proj2 Hd), K1.
          apply (follows_forth m (lks s)); [exact Hd|]. intros a y b Eq. apply (K3 a y b Eq).
        + rewrite <- map_rev. apply (follows_seen phi m g Hm) with (p := Direct m 0%nat true); [apply (tm_dir _ _ _ Hm), Hr|]. rewrite (proj2 Hd), K2.
          apply (follows_back m (lks s)); [exact Hd|]. intros a y b Eq. apply (K3 a y b Eq).
        + clear - N Hlt Hm. induction l as [|a l IH]; [constructor|]. apply NoDup_cons_iff in N as (N1 & N2). cbn [map]. constructor.
          * intros X. apply in_map_iff in X as (b & Eb & Hb). apply N1. replace a with b; [exact Hb|].
            apply (nth_inj phi b a (at_phi phi a) (mv_nd _ _ _ (tm_base _ _ _ Hm))); [rewrite <- Eb; apply Hlt; right; exact Hb|apply Hlt; left; reflexivity].
          * apply IH; [|exact N2]. intros b Hb. apply Hlt. right. exact Hb.
        + intros b. rewrite in_map_iff. split.
          * intros (a & <- & Ha). apply (node_seen' phi m g r Hm Hr a); [apply Hl, Ha|apply Hlt, Ha].
          * intros Hb. destruct (node_seen phi m g r Hm Hr b Hb) as (a & Ha & E0). exists a. split; [unfold at_phi; apply nth_error_nth, E0|apply Hl, Ha].
      - rewrite map_map. transitivity (map (fun a => (Key (base m) a, Value (base m) a)) l).
        + apply map_ext_in. intros a Ha. pose proof (tm_base _ _ _ Hm) as Hb. rewrite (mv_key _ _ _ Hb a _ (Hlt a Ha)), (mv_value _ _ _ Hb a _ (Hlt a Ha)). reflexivity.
        + unfold l. rewrite <- Ee, <- Hv. apply entries_at, H0.
    Qed.
  End Run.
End Props.
Print Assumptions C75_lists_apart.
Print Assumptions C75_other_lists_untouched.
Print Assumptions C75_no_shared_nodes.
Print Assumptions C75_lists_sorted_maps_partial.
Print Assumptions C75_small_lists_sorted_maps_partial.
Print Assumptions C75_lists_well_linked_partial.
Print Assumptions C75_lists_threaded_partial.

(** ** where that ends *)
Notation zlpstep := (lpstep any 0 0).
Notation zlpool0 := (lpool0 0 0).
Notation zapart := (lapart (K := Z) (V := Z) any 0 0).
(** A union with a list that a Trim has emptied brings back what was removed. *)
Theorem C75_union_after_trim_refuted : exists ops, run zlpstep zlpool0 ops =
    Some [LMade; LMade; LSays (TBool true); LSays (TBool true); LSays TUnit; LSays (TNum 0); LMade; LSays (TSeen [(1, 10); (2, 20)])] /\
  nth 7 (srun (lp_spec Z.ltb) [] ops) LPanic = LSays (TSeen [(2, 20)]).
Proof.
  exists [LNew; LNew; LOn 0 (TPut 1 10); LOn 1 (TPut 2 20); LOn 0 (TTrim 5 6); LOn 0 TSize; LSet LUnion 0 1; LOn 2 (TTraverse (fun _ => true))].
  split; vm_compute; reflexivity.
Qed.
Print Assumptions C75_union_after_trim_refuted.

(** ** examples *)
(** two lists, the three set operations on them, and calls on all five; a list with itself, and results used again *)
Definition lp_ops : list (lp_op Z Z) :=
  [LNew; LNew] ++ map (LOn 0) (tputs (map Z.of_nat (seq 0 12))) ++ map (LOn 1) (tputs (map (fun i => 2 * Z.of_nat i) (seq 3 9))) ++
  [LSet LIntersection 0 1; LSet LUnion 0 1; LSet LDifference 0 1;
   LOn 0 (TRemoveRange 2 8); LOn 1 (TPut 7 7); LOn 2 (TSet 8 800); LOn 3 (TRemove 9); LOn 4 TRemoveHead; LOn 3 (TTrimByIndex 2 12);
   LSet LUnion 4 2; LSet LIntersection 3 3; LSet LDifference 1 1; LOn 7 (TPut 5 5); LOn 8 TSize;
   LOn 0 (TTraverse (fun _ => true)); LOn 1 (TTraverse (fun _ => true)); LOn 2 (TTraverse (fun _ => true)); LOn 3 (TTraverse (fun _ => true));
   LOn 4 (TTraverse (fun _ => true)); LOn 5 (TTraverse (fun _ => true)); LOn 6 THead; LOn 6 TTail; LOn 7 (TTraverse (fun _ => true))].
Example C75_case : calls_fine Z.ltb [] [] lp_ops /\ lists_small Z.ltb [] lp_ops /\
  option_map (skipn 26) (run zlpstep zlpool0 lp_ops) = Some
    [LSays (TBool true); LSays (TBool true); LSays (TBool true); LSays (TSlice (Some (9, 90))); LSays (TSlice (Some (0, 0))); LSays TUnit; LMade; LMade; LMade;
     LSays (TBool true); LNoList;
     LSays (TSeen [(0, 0); (1, 10); (9, 90); (10, 100); (11, 110)]);
     LSays (TSeen [(6, 60); (7, 7); (8, 80); (10, 100); (12, 120); (14, 140); (16, 160); (18, 180); (20, 200); (22, 220)]);
     LSays (TSeen [(6, 60); (8, 800); (10, 100)]);
     LSays (TSeen [(2, 20); (3, 30); (4, 40); (5, 50); (6, 60); (7, 70); (8, 80); (10, 100); (11, 110); (12, 120); (14, 140)]);
     LSays (TSeen [(1, 10); (2, 20); (3, 30); (4, 40); (5, 50); (7, 70); (9, 90); (11, 110)]);
     LSays (TSeen [(1, 10); (2, 20); (3, 30); (4, 40); (5, 50); (6, 60); (7, 70); (8, 800); (9, 90); (10, 100); (11, 110)]);
     LSays (TSlice (Some (2, 20))); LSays (TSlice (Some (14, 140))); LSays (TSeen [(5, 5)])].
Proof. split; [vm_compute; intuition congruence|]. split; [vm_compute; intuition (subst; congruence)|]. vm_compute. reflexivity. Qed.
(** the eight lists in memory: tree.root, the topmost node with its Size, and the ends *)
Example C75_case_nodes :
  option_map (fun s => map (fun r => (r, Children (base (fst s)) r false, option_map (Size (base (fst s))) (Children (base (fst s)) r false), Direct (fst s) r false, Direct (fst s) r true)) (snd s))
    (reach zlpstep zlpool0 lp_ops) = Some
    [(0, Some 11, Some 5%Z, Some 2, Some 13); (1, Some 17, Some 10%Z, Some 14, Some 22); (23, Some 24, Some 3%Z, Some 25, Some 26);
     (27, Some 28, Some 11%Z, Some 30, Some 42); (46, Some 47, Some 8%Z, Some 49, Some 55); (57, Some 58, Some 11%Z, Some 61, Some 67);
     (69, Some 70, Some 11%Z, Some 73, Some 79); (81, Some 82, Some 1%Z, Some 82, Some 82)]%nat.
Proof. vm_compute. reflexivity. Qed.
(** with calls after which C36 does not hold any more, the lists are still apart *)
Example C75_case_apart : option_map (@length _) (run zapart [] (lp_ops ++ [LOn 0 (TTrimByIndex 7 9); LOn 1 (TTrim 100 200); LSet LUnion 1 0; LOn 8 TSize])) = Some 50%nat.
Proof. vm_compute. reflexivity. Qed.
