(** Property theorems C03, C04. *)
From Verif Require Import Base Machine CompareModel CompareProofs HeapSpec HeapModel HeapProofs.

(** C03: every history is allowed by the bag specification, and no call panics. *)
Theorem C03_heap_refines_bag :
  forall (A : Type) (zero : A) (le : A -> A -> Prop) (compare : A -> A -> Z), agrees le compare ->
  forall ops : list (heap_op A),
  exists rs, run (step zero compare) (new zero) ops = Some rs /\ heap_hist le [] ops rs.
Proof. exact @heap_run_ok. Qed.
Print Assumptions C03_heap_refines_bag.

(** C04: fill and drain sorts. *)
Theorem C04_heap_sort :
  forall (A : Type) (zero : A) (le : A -> A -> Prop) (compare : A -> A -> Z), agrees le compare ->
  forall vs : list A, exists out,
     run (step zero compare) (new zero) (map HPut vs ++ repeat HPop (S (length vs))) =
       Some (map (fun _ => HUnit) vs ++ map (fun x => HVal (Some x)) out ++ [HVal None]) /\
     Permutation out vs /\ StronglySorted le out.
Proof. exact @heap_sort_ok. Qed.
Print Assumptions C04_heap_sort.

(** The hypothesis is met by the library's own comparators, e.g. compare.Any. *)
Example C03_hyp : agrees (fun a b => (any a b <= 0)%Z) any.
Proof. exact (cmp_ok_agrees any any_cmp_ok). Qed.
Example C04_case : run (step 0%Z any) (new 0%Z) (map HPut [5;3;9;3;1]%Z ++ repeat HPop 6) =
  Some [HUnit;HUnit;HUnit;HUnit;HUnit; HVal (Some 1%Z); HVal (Some 3%Z); HVal (Some 3%Z); HVal (Some 5%Z); HVal (Some 9%Z); HVal None].
Proof. vm_compute; reflexivity. Qed.
