(** tree/treelist: iterators and range iterators (C39). *)
From Verif Require Import Base Bind Machine OrderSpec SMapSpec SMapFacts CompareModel AvlTree AvlSpec IndexSpec IndexModel IndexProofs IndexProps
  TreelistSpec TreelistModel TreelistLinks TreelistProofs TreelistSteps TreelistProps TreelistSetModel TreelistSetProofs TreelistSetProps
  TreelistIterModel TreelistIterProofs.
Local Open Scope Z_scope.

Section Props.
  Context {K V : Type} (ltb : K -> K -> bool) (W : weak_order ltb) (cmp : K -> K -> Z) (Hcmp : plain_cmp ltb cmp).
  Notation grown ops := (sreach (tl_step cmp) (new (K := K) (V := V)) ops).
  Notation content ops := (sreach (tl_spec ltb) (@nil (K * V)) ops).

  (** Every sequence of calls of an iterator of a tree list reached by any sequence of calls returns what it should return
      given the entries.  Full statement: for all of them.  Missing: a seek in an empty tree, a Prev that is not at an entry, a
      list emptied by Trim (all refuted below), and what C36 excludes. *)
  Theorem C39_iterator_partial (ops : list (tl_op K V)) (calls : list (ti_op K)) :
    reached ltb cmp ops -> calls_ok ltb (content ops) None calls ->
    srun (ti_step cmp (grown ops)) (H None 0) calls = srun (ti_spec ltb (content ops)) None calls.
  Proof.
    intros (P1 & T1 & S1). pose proof (grown_rel ltb W cmp Hcmp ops P1 T1) as HR. rewrite S1 in HR. revert HR.
    generalize (grown ops) as s. generalize (content ops) as m. intros m s HR.
    assert (HI : IRel s (H None 0) None) by reflexivity. revert HI. generalize (H None 0) as h. generalize (@None Z) as p.
    induction calls as [|o calls IH]; intros p h HI Hc; [reflexivity|]. destruct Hc as (Hc1 & Hc2). cbn [srun].
    destruct (iter_ok ltb W cmp Hcmp s m HR h p o HI Hc1) as (X1 & X2).
    destruct (ti_step cmp s h o) as [h' r]. destruct (ti_spec ltb m p o) as [p' r']. cbn [fst snd] in *. subst r'. f_equal. apply IH; auto.
  Qed.

  (** GE2LE, GT2LE, GE2LT and GT2LT set a range iterator so that Size is the number of entries inside the bounds, and Range
      shows the callback exactly these with their positions, in order or, in direction Reverse, backwards, until it
      returns false.  (The tree is not changed meanwhile.)  Missing: the empty tree, where setting a range panics. *)
  Theorem C39_range_iterator_partial (ops : list (tl_op K V)) gt lt lo hi (ir : range) :
    reached ltb cmp ops -> content ops <> [] ->
    let l := range_of ltb gt lt lo hi (content ops) in
    exists ir', setRange cmp gt lt lo hi (grown ops) ir = Some ir' /\ dir ir' = dir ir /\ rangeSize ir' = len l /\
      forall go, Range (grown ops) go ir' = Some (until go [] (if dir ir then rev l else l)).
  Proof.
    intros (P1 & T1 & S1) Hne. pose proof (grown_rel ltb W cmp Hcmp ops P1 T1) as HR. rewrite S1 in HR.
    exact (range_ok ltb W cmp Hcmp _ _ HR gt lt lo hi ir Hne).
  Qed.
End Props.
Print Assumptions C39_iterator_partial.
Print Assumptions C39_range_iterator_partial.

(** A seek by key in an empty tree panics, as does setting a range. *)
Theorem C39_empty_refuted : exists ops : list (tl_op Z Z), reached Z.ltb any ops /\ sreach (tl_spec Z.ltb) [] ops = [] /\
  let s := sreach (tl_step any) new ops in
  (forall k, srun (ti_step any s) (H None 0) [TIGE k; TIGT k; TILE k; TILT k] = [TIPanic; TIPanic; TIPanic; TIPanic]) /\
  (forall gt lt lo hi ir, setRange any gt lt lo hi s ir = None).
Proof.
  exists [TPut 1 1; TRemove 1]. split; [split; [apply puts_checked; reflexivity|vm_compute; auto 20]|]. split; [reflexivity|].
  cbv zeta. split; [reflexivity|]. intros [|] [|] lo hi ir; reflexivity.
Qed.
Print Assumptions C39_empty_refuted.
(** A list emptied by Trim has no entries, but an iterator sent to the first or last says it is at one. *)
Theorem C39_trimmed_refuted : exists ops : list (tl_op Z Z), puts_work any ops /\ trims_inside Z.ltb [] ops /\
  sreach (tl_spec Z.ltb) [] ops = [] /\
  srun (ti_step any (sreach (tl_step any) new ops)) (H None 0) [TIFirst; TIValid; TILast; TIValid] = [TIUnit; TIBool true; TIUnit; TIBool true].
Proof. exists [TPut 1 1; TTrim 5 6]. split; [apply puts_checked; reflexivity|]. vm_compute. auto 20. Qed.
Print Assumptions C39_trimmed_refuted.
(** A Prev that panics still counts: a program that recovers reads a wrong position. *)
Theorem C39_prev_refuted : exists (ops : list (tl_op Z Z)) calls, reached Z.ltb any ops /\
  let s := sreach (tl_step any) new ops in let m := sreach (tl_spec Z.ltb) [] ops in
  srun (ti_step any s) (H None 0) calls = [TIUnit; TIUnit; TIPanic; TIInt 0] /\
  srun (ti_spec Z.ltb m) None calls = [TIUnit; TIUnit; TIPanic; TIInt 1].
Proof.
  exists [TPut 1 1], [TIFirst; TINext; TIPrev; TIIndex]. split; [split; [apply puts_checked; reflexivity|vm_compute; auto 20]|].
  vm_compute. auto.
Qed.
Print Assumptions C39_prev_refuted.
(** Range on a new range iterator, of any tree, dereferences nil, though Size is 0. *)
Theorem C39_unset_range_refuted : forall (s : TreelistModel.tl Z Z) go dir, let ir := R (H None 0) (H None 0) dir in
  rangeSize ir = 0 /\ Range s go ir = None.
Proof. intros s go [|]; split; reflexivity. Qed.
Print Assumptions C39_unset_range_refuted.

Definition iter_ops : list (tl_op Z Z) := tputs [50; 10; 90; 30; 70; 20; 80; 40; 60; 100] ++ [TRemove 60; TRemove 10].
Definition iter_calls : list (ti_op Z) :=
  [TIValid; TIGE 25; TISlice; TIIndex; TINext; TISlice; TIGT 90; TISlice; TIIndex; TINext; TIValid; TIIndex; TILE 65; TIKey; TIIndex; TIPrev; TIValue;
   TILT 20; TIValid; TIIndex; TIGE 80; TICompare 85; TILast; TIIndex; TIPrev; TISlice; TIByIndex 3; TISlice; TIByIndex 8; TIKey].
Example C39_calls : reached Z.ltb any iter_ops /\ calls_ok Z.ltb (sreach (tl_spec Z.ltb) [] iter_ops) None iter_calls /\
  srun (ti_step any (sreach (tl_step any) new iter_ops)) (H None 0) iter_calls =
  [TIBool false; TIBool false; TIKV (30, 300); TIInt 1; TIUnit; TIKV (40, 400); TIBool true; TIKV (100, 1000); TIInt 7; TIUnit; TIBool false; TIInt 8;
   TIBool false; TIK 50; TIInt 3; TIUnit; TIV 400; TIBool true; TIBool false; TIInt (-1); TIBool true; TIInt (-1); TIUnit; TIInt 7; TIUnit; TIKV (90, 900);
   TIUnit; TIKV (50, 500); TIPanic; TIK 50].
Proof.
  split; [split; [apply puts_checked; vm_compute; reflexivity|vm_compute; auto 40]|]. split; [|vm_compute; reflexivity].
  vm_compute. repeat (split; [first [exact I|discriminate]|]). exact I.
Qed.
Example C39_ranges : let s := sreach (tl_step any) new iter_ops in
  let show gt lt lo hi d := option_map (fun ir => (rangeSize ir, Range s (fun l => Nat.ltb (length l) 3) ir)) (setRange any gt lt lo hi s (R (H None 0) (H None 0) d)) in
  sreach (tl_spec Z.ltb) [] iter_ops <> [] /\
  show false false 30 70 false = Some (4, Some [((30, 300), 1); ((40, 400), 2); ((50, 500), 3)]) /\
  show true true 30 70 false = Some (2, Some [((40, 400), 2); ((50, 500), 3)]) /\
  show true false 35 75 true = Some (3, Some [((70, 700), 4); ((50, 500), 3); ((40, 400), 2)]) /\
  show false true 41 50 true = Some (0, Some []) /\ show false false 70 30 false = Some (0, Some []) /\
  show true false 100 200 false = Some (0, Some []).
Proof. cbv zeta. split; [vm_compute; discriminate|]. vm_compute. repeat split; reflexivity. Qed.
