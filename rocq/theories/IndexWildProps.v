(** tree/indextree: a comparison function that is no order does no damage to the tree (C76). *)
From Verif Require Import Base Bind Machine OrderSpec SMapSpec AvlTree AvlSpec IndexSpec WildSpec IndexModel IndexWildProofs
  FloatModel IndexHeapModel IndexHeapProofs IndexHeapReadProofs IndexHeapRunProofs IndexHeapProps.
Local Open Scope Z_scope.

Section Props.
  Context {K A : Type} (cmp : K -> K -> Z) (shift : Z) (Hsh : 0 <= shift) (zero : K).
  Notation hstep := (@hstep K A cmp shift zero).
  Notation new := (@new K A zero).

  (** After any calls that answered, whatever the comparison function says: the nodes are well linked, their sizes right and
      the package's own check goes through; the answers are those of a list of entries in which calls by key found some entry
      that compares equal, or none, and touched no other; and any further call ends and is of that kind too.  Full
      statement: for all [ops].  Missing: what follows a Trim by keys (refuted below) or a TrimByIndex that panicked. *)
  Theorem C76_index_tree_any_comparison_partial ops m r xs : reach hstep new ops = Some (m, r) -> run hstep new ops = Some xs -> Forall2 no_trim ops xs ->
    well_linked m r /\ check r m = true /\
    exists e, may_run cmp [] ops xs e /\ forall o, exists m' r' x e', hstep (m, r) o = Some ((m', r'), x) /\ may cmp e o e' x.
  Proof.
    intros H1 H2 H3. destruct (hrun_wild cmp shift Hsh zero ops _ _ E m r xs (rep_new zero) I H1 H2 H3) as (Q & Hz & R).
    split; [exact (linked m r _ Q Hz)|]. split; [exact (check_ok m r _ Q Hz)|]. eexists. split; [exact R|]. intros o.
    destruct (hstep_wild cmp shift Hsh zero m r _ o Q Hz) as (m' & r' & X & _). destruct (step_wild cmp shift Hsh _ o Hz) as (Y & _). eauto 7.
  Qed.

  (** Without calls of Trim and TrimByIndex no condition is left: every run ends. *)
  Definition trimless (o : ix_op K A) : Prop := match o with XTrim _ _ | XTrimByIndex _ _ => False | _ => True end.
  Theorem C76_index_tree_trimless ops : Forall trimless ops ->
    exists m r xs e, reach hstep new ops = Some (m, r) /\ run hstep new ops = Some xs /\ may_run cmp [] ops xs e /\ well_linked m r /\ check r m = true.
  Proof.
    intros Hf. enough (H : forall m r t, rep m r t -> sized t -> exists m' r' xs, reach hstep (m, r) ops = Some (m', r') /\ run hstep (m, r) ops = Some xs /\ Forall2 no_trim ops xs).
    { destruct (H _ _ E (rep_new zero) I) as (m & r & xs & H1 & H2 & H3). destruct (C76_index_tree_any_comparison_partial ops m r xs H1 H2 H3) as (L & C & e & R & _).
      exists m, r, xs, e. auto. }
    induction Hf as [|o ops Ho Hf IH]; intros m r t Hr Hz; [exists m, r, []; cbn; auto|].
    destruct (hstep_wild cmp shift Hsh zero m r t o Hr Hz) as (m1 & r1 & X & Q). destruct (step_wild cmp shift Hsh t o Hz) as (_ & Y).
    assert (Hn : no_trim o (snd (IndexModel.step cmp shift t o))) by (destruct o; cbn [no_trim trimless] in *; tauto).
    destruct (IH m1 r1 _ Q (Y Hn)) as (m' & r' & xs & I1 & I2 & I3). cbn [reach run]. rewrite X, I1, I2. eexists _, _, _. split; [reflexivity|]. split; [reflexivity|].
    constructor; assumption.
  Qed.
End Props.
Print Assumptions C76_index_tree_any_comparison_partial.
Print Assumptions C76_index_tree_trimless.

(** ** where that ends *)
(** numbers of four bits that count on from 15 to 0: the later one within half a turn is the greater *)
Definition serial (a b : Z) : Z := let d := (a - b) mod 16 in if d =? 0 then 0 else if d <? 8 then 1 else -1.
Notation sheap := (IndexHeapModel.hstep (A := Z) serial 2 0).
Notation snew := (IndexHeapModel.new (A := Z) 0).
Definition sputs (l : list Z) : list (ix_op Z Z) := map (fun z => XPut z (Some z)) l.
(** A Trim with such numbers leaves four entries and a Size of five, and an Index panics that should not. *)
Theorem C76_trim_refuted : exists ops m r, run sheap snew (ops ++ [XSize; XTraverse (fun _ => true); XIndex 4]) =
    Some [XBool true; XBool true; XBool true; XBool true; XBool true; XUnit; XNum 5; XSeen (map (fun z => (z, Some z)) [14; 0; 6; 7]); XPanic] /\
  reach sheap snew ops = Some (m, r) /\ ~ well_linked m r /\ check r m = false.
Proof.
  exists (sputs [0; 6; 14; 4; 7] ++ [XTrim 5 11]). destruct (reach sheap snew (sputs [0; 6; 14; 4; 7] ++ [XTrim 5 11])) as [(m, r)|] eqn:Er; [|vm_compute in Er; discriminate].
  exists m, r. split; [vm_compute; reflexivity|]. split; [reflexivity|].
  assert (H : option_map (fun s => (snd s, check (snd s) (fst s), Children (fst s) 0 false, (Children (fst s) 1 false, Children (fst s) 1 true), map (Size (fst s)) [1; 2; 3]))%nat
                         (reach sheap snew (sputs [0; 6; 14; 4; 7] ++ [XTrim 5 11])) = Some (0%nat, false, Some 1%nat, (Some 3%nat, Some 2%nat), [5; 2; 1])) by (vm_compute; reflexivity).
  rewrite Er in H. cbn [option_map fst snd map] in H. injection H as -> H1 H2 H3 H4 H5 H6 H7. split; [|exact H1].
  intros X. pose proof (wl_size _ _ X 1 (top_node _ _ _ H2)) as Y. rewrite H3, H4 in Y. cbn [sz] in Y. rewrite H5, H6, H7 in Y. discriminate.
Qed.
Print Assumptions C76_trim_refuted.

(** ** examples *)
(** NaN among floats (compare.Any), and the circular numbers: all kinds of calls on trees out of order *)
Definition flo (z : Z) : float := Num (Fin false (QArith_base.inject_Z z)).
Definition wild_ops {K : Type} (f : Z -> K) (w : K) : list (ix_op K Z) :=
  map (fun z => XPut (f z) (Some z)) [5; 1; 9; 3] ++ [XPut w (Some 100)] ++ map (fun z => XPut (f z) (Some z)) [12; 7; 4; 14; 2; 11; 0; 8] ++
  [XSet w (Some 200); XUpsert w (Some 300); XGet (f 3); XGet w; XIndexOf w; XIndex 4; XRemove (f 9); XRemoveRange (f 2) w; XSize; XRemoveIndex 0;
   XTraverse (fun _ => true); XSplit false true w; XRemoveRangeByIndex 1 1; XTraverse (fun _ => true)].
Example C76_case_nan : Forall trimless (wild_ops flo NaN) /\
  option_map (skipn 13) (run (IndexHeapModel.hstep (A := Z) (anyBy flt) 2 NaN) (IndexHeapModel.new NaN) (wild_ops flo NaN)) = Some
    [XBool true; XBool true; XFound (Some 300) true; XFound (Some 300) true; XNum 5; XKV (flo 4) (Some 4); XVal (Some 300); XUnit; XNum 10; XVal (Some 0);
     XSeen (map (fun z => (flo z, Some z)) [1; 3; 4; 7; 8; 9; 11; 12; 14]); XOther []; XUnit; XSeen (map (fun z => (flo z, Some z)) [1; 4; 7; 8; 9; 11; 12; 14])].
Proof. split; [repeat constructor|]. vm_compute. reflexivity. Qed.
Example C76_case_serial : Forall trimless (wild_ops (fun z => z) 13) /\ option_map (skipn 13) (run sheap snew (wild_ops (fun z => z) 13)) = Some
    [XBool true; XBool true; XFound (Some 3) true; XFound (Some 300) true; XNum 0; XKV 2 (Some 2); XVal (Some 9); XPanic; XNum 12; XVal (Some 300);
     XSeen (map (fun z => (z, Some z)) [14; 0; 1; 2; 3; 4; 5; 7; 8; 11; 12]); XOther (map (fun z => (z, Some z)) [14; 0; 1; 2; 3; 4; 5; 7; 8; 11; 12]); XPanic; XSeen []].
Proof. split; [repeat constructor|]. vm_compute. reflexivity. Qed.
