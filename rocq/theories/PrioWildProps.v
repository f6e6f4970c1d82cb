(** queue/priority: a comparison function that is no order does no damage (C79, continued). *)
From Verif Require Import Base Bind Machine OrderSpec SMapSpec AvlTree AvlSpec IndexSpec IndexProofs WildSpec FloatModel PrioSpec PrioModel PrioProofs PrioWildSpec PrioWildProofs AvlWildProps.
Local Open Scope Z_scope.

Section Props.
  Context {K V : Type} (cmp : K -> K -> Z) (Hdir : forall a b, cmp a b <= 1).

  Lemma pq_wild_run (ops : list (pq_op K V)) : forall t, sized t ->
    (forall ops1 i ops2 t1, ops = ops1 ++ QRemoveIndex i :: ops2 -> reach (pq_step cmp) t ops1 = Some t1 -> 0 <= i < getSize t1 \/ getSize t1 <= 1) ->
    exists t' xs, run (pq_step cmp) t ops = Some xs /\ reach (pq_step cmp) t ops = Some t' /\ qmay_run cmp (elems t) ops xs (elems t') /\ sized t'.
  Proof.
    induction ops as [|o ops IH]; intros t Ht Hin; [exists t, []; repeat split; auto; constructor|].
    assert (Ho : inside_ok (elems t) o).
    { destruct o; cbn [inside_ok]; auto. specialize (Hin [] i ops t eq_refl eq_refl). unfold getSize in Hin. now rewrite (size_len t Ht) in Hin. }
    destruct (pq_wild cmp Hdir t o Ht Ho) as (t1 & x & E & H1 & M1). destruct (IH t1 H1) as (t' & xs & E1 & E2 & E3 & H2).
    - intros ops1 i ops2 t2 -> Er. apply (Hin (o :: ops1) i ops2); auto. cbn [reach]. now rewrite E.
    - exists t', (x :: xs). cbn [run reach]. rewrite E, E1, E2. repeat split; auto. econstructor; eauto.
  Qed.

  (** Whatever directions the comparison function gives: as long as RemoveIndex is called with positions below Size only, no call
      panics but Index outside the queue; a call by key finds some entry that counts as a hit, or none, and touches no
      other; Put adds one entry; calls by position and PopHead and PopTail do what they always do; all stored sizes are
      right. *)
  Theorem C79_priority_queue_any_comparison_partial (ops : list (pq_op K V)) :
    (forall ops1 i ops2 t, ops = ops1 ++ QRemoveIndex i :: ops2 -> reach (pq_step cmp) E ops1 = Some t -> 0 <= i < getSize t \/ getSize t <= 1) ->
    exists t xs, run (pq_step cmp) E ops = Some xs /\ reach (pq_step cmp) E ops = Some t /\ qmay_run cmp [] ops xs (elems t) /\ sized t.
  Proof. intros H. destruct (pq_wild_run ops E I H) as (t & xs & X). exists t, xs. exact X. Qed.
End Props.
Print Assumptions C79_priority_queue_any_comparison_partial.

(** ** an example: RemoveIndex is called with position 1 of a queue of several entries *)
Definition wild_qops : list (pq_op Z Z) :=
  map (fun z => QPut z (10 * z)) [5; 1; 9; 3; 13; 12; 7; 4; 14; 2; 11; 0; 8] ++
  [QRemoveIndex 1; QGet 3; QUpsert 13 200; QGet 13; QInsertIfAbsent 9 99; QRemove 9; QDelete 4; QPopHead; QPopTail; QIndex 2; QIndex (-1); QSize; QTraverse (fun _ => true)].
Example C79_case_queue : (forall ops1 i ops2 t, wild_qops = ops1 ++ QRemoveIndex i :: ops2 -> reach (pq_step chaos) E ops1 = Some t -> 0 <= i < getSize t \/ getSize t <= 1) /\
  option_map (skipn 13) (run (pq_step chaos) E wild_qops) = Some
  [QV 90; QVal (Some 40); QBool true; QVal (Some 200); QBool false; QVal (Some 130); QVal (Some 50); QVal (Some 20); QVal (Some 0); QV 110; QV 140; QNum 8; QSeen [(3, 30); (4, 200); (11, 110); (1, 10); (12, 120); (8, 80); (7, 70); (14, 140)]].
Proof.
  split.
  - intros ops1 i ops2 t H. do 13 (destruct ops1 as [|? ops1]; [discriminate H|injection H as <- H]).
    destruct ops1 as [|? ops1].
    + injection H as <- _. intros Hr. left. assert (E0 : reach (pq_step chaos) E (map (fun z => QPut z (10 * z)) [5; 1; 9; 3; 13; 12; 7; 4; 14; 2; 11; 0; 8]) = Some t) by exact Hr.
      vm_compute in E0. injection E0 as <-. vm_compute. split; congruence.
    + injection H as <- H. repeat (destruct ops1 as [|? ops1]; [discriminate H|injection H as _ H]). destruct ops1; discriminate H.
  - vm_compute. reflexivity.
Qed.
