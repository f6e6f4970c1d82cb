(** C18: the hash map is a finite map and the hash set is a finite set, for every operation sequence and every
    order in which the runtime may enumerate a map. *)
From Verif Require Import Base Machine GoMap HashSpec HashModel HashProofs.

Theorem C18_hashmap_is_finite_map :
  forall (K V : Type) (keq : K -> K -> bool) (nilk : K) (nilv : V) (order : nat -> gmap K V -> gmap K V),
  (forall a b, keq a b = true <-> a = b) -> (forall n m, Permutation (order n m) m) ->
  forall ops, exists rs, run (step keq nilk nilv order) new ops = Some rs /\ allowed keq fempty ops rs.
Proof.
  intros K V keq nilk nilv order Hk Ho ops. apply run_ok; try assumption. split; [constructor|reflexivity].
Qed.

(** Every key an operation does not name keeps its binding. *)
Theorem C18_hashmap_other_keys :
  forall (K V : Type) (keq : K -> K -> bool) (nilk : K) (nilv : V) (order : nat -> gmap K V -> gmap K V),
  (forall a b, keq a b = true <-> a = b) -> (forall n m, Permutation (order n m) m) ->
  forall ops s o s' r k k' v, reach (step keq nilk nilv order) new ops = Some s ->
  o = HPut k v \/ o = HInsertIfAbsent k v \/ o = HSet k v \/ o = HUpsert k v \/ o = HRemove k \/ o = HDelete k ->
  step keq nilk nilv order s o = Some (s', r) -> k' <> k ->
  option_map snd (step keq nilk nilv order s' (HGet k')) = option_map snd (step keq nilk nilv order s (HGet k')).
Proof.
  intros K V keq nilk nilv order Hk Ho ops s o s' r k k' v Hr Hop E Hne.
  assert (HR : exists f, Rel keq s f).
  { revert Hr. assert (H0 : Rel (V:=V) keq new fempty) by (split; [apply NoDup_nil|reflexivity]).
    revert H0. generalize (@fempty K V) as f. generalize (@new K V) as s0.
    induction ops as [|o' ops IH]; intros s0 f H0 Hr; simpl in Hr.
    - exists f. congruence.
    - destruct (step_ok keq nilk nilv order Hk Ho s0 f o' H0) as (s1 & r1 & E1 & _ & H1).
      rewrite E1 in Hr. eapply IH; eauto. }
  destruct HR as [f HR]. destruct (step_ok keq nilk nilv order Hk Ho s f o HR) as (s1 & r1 & E1 & _ & [_ H1]).
  rewrite E in E1. injection E1 as <- <-. simpl. unfold get. do 2 f_equal.
  rewrite H1. destruct HR as [_ ->].
  assert (Hkk : keq k k' = false) by (apply keq_neq; auto).
  destruct Hop as [->|[->|[->|[->|[->| ->]]]]]; simpl; unfold fset, fdel; rewrite ?Hkk; try reflexivity;
    destruct (f k); rewrite ?Hkk; reflexivity.
Qed.

Theorem C18_hashset_is_finite_set :
  forall (K : Type) (keq : K -> K -> bool) (nilk : K) (order : nat -> gmap K unit -> gmap K unit),
  (forall a b, keq a b = true <-> a = b) -> (forall n m, Permutation (order n m) m) ->
  forall ops, exists rs, run (sstep keq nilk order) snew ops = Some rs /\ sallowed (fun _ => False) ops rs.
Proof.
  intros K keq nilk order Hk Ho ops. apply srun_ok; try assumption. split; [constructor|]. intros k; simpl; tauto.
Qed.

(** The hypotheses are met: natural keys, and an enumeration order that alternates. *)
Definition alternating {K V} (n : nat) (m : gmap K V) : gmap K V := if Nat.even n then m else rev m.
Lemma alternating_ok {K V} n (m : gmap K V) : Permutation (alternating n m) m.
Proof. unfold alternating. destruct (Nat.even n); [reflexivity|symmetry; apply Permutation_rev]. Qed.
Example hashmap_run :
  (forall a b, Nat.eqb a b = true <-> a = b) /\ (forall n m, Permutation (alternating (K:=nat) (V:=nat) n m) m) /\
  run (step Nat.eqb 0 0 alternating) new
      [HPut 1 10; HPut 2 20; HPut 1 11; HUpsert 2 22; HUpsert 3 30; HKeys; HKeys; HGet 1; HDelete 2; HDelete 2;
       HSize; HSlices; HClear; HEmpty] =
  Some [HBool true; HBool true; HBool false; HBool true; HBool false; HKeyList [3; 2; 1]; HKeyList [1; 2; 3];
        HVal (Some 10); HVal (Some 22); HVal None; HNat 2; HPairs [(3, 30); (1, 10)]; HUnit; HBool true].
Proof. split; [exact Nat.eqb_eq|]. split; [apply alternating_ok|reflexivity]. Qed.
Example hashset_run :
  run (sstep Nat.eqb 0 alternating) snew [SAdd [1; 2; 1; 3]; SSize; SRemove [2; 5]; SValues; SContains 2; SContains 3] =
  Some [SUnit; SNat 3; SUnit; SList [3; 1]; SBool false; SBool true].
Proof. reflexivity. Qed.
(** ... and the specification rejects wrong answers *)
Example spec_rejects : ~ allowed Nat.eqb fempty [HPut 1 10; HPut 1 11] [HBool true; HBool true].
Proof. simpl. intros (_ & H & _). discriminate. Qed.

Print Assumptions C18_hashmap_is_finite_map.
Print Assumptions C18_hashmap_other_keys.
Print Assumptions C18_hashset_is_finite_set.
