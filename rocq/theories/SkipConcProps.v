(** Skip lists used by several goroutines: C53, C54. *)
From Verif Require Import Base Bind Machine OrderSpec SMapSpec SkipSpec SkipModel SkipProofs SkipOps SkipSets SkipConc SkipConcProofs.

Section Props.
  Context {K V : Type} (ltb : K -> K -> bool) (W : weak_order ltb) (cmp : K -> K -> Z) (Hc : sign_cmp ltb cmp).

  Lemma runs_length (impl : call K V -> prog K V) sched : forall c c', cruns impl c sched = Some c' -> length (ths c') = length (ths c).
  Proof.
    induction sched as [|t sched IH]; intros c c' E; cbn [cruns] in E; [now injection E as <-|]. destruct (cstep impl c t) as [c1|] eqn:E1; [|discriminate]. rewrite (IH c1 c' E).
    destruct (step_local impl c t c1 E1) as [(_ & ->)|(th & th' & _ & -> & _)]; auto. apply list_set_length.
  Qed.
  (** Any number of goroutines call all methods but RemoveHead and DifferenceSets, under any schedule.  [impl] gives each call
      as a program of steps, as fine as one likes: it must touch a list only while holding its lock, keep its locks to the end,
      and do, if nothing comes in between, what SkipModel.v says.  Then nothing panics; the calls, in the order in which they
      finish their work, have the results of these calls made one after the other; each goroutine's calls are in their order;
      and a list nobody has locked holds the entries it would then hold. *)
  Theorem C53_atomic_partial (impl : call K V -> prog K V) (lv : nat -> Z) (calls : list (list (call K V))) (sched : list nat) :
    (forall k, well_locked k = true -> strict [] (impl k) /\ forall g, (forall l, reachable cmp (g l)) -> same_res (alone (impl k) g) (call_alone cmp g k)) ->
    (forall cs k, In cs calls -> In k cs -> well_locked k = true) ->
    exists c, cruns impl (start (fun l => NewWithMaxLevel (lv l)) calls) sched = Some c /\
      map snd (log c) = srun (call_spec ltb) (fun _ => []) (map (fun x => snd (fst x)) (log c)) /\
      (forall t cs, nth_error calls t = Some cs -> exists th, nth_error (ths c) t = Some th /\
         cs = map (fun x => snd (fst x)) (filter (fun x => fst (fst x) =? t) (log c)) ++ match work th with Some (k, _) => [k] | None => [] end ++ todo th) /\
      (forall l, locked c l = false -> slice (store c l) = Some (sreach (call_spec ltb) (fun _ => []) (map (fun x => snd (fst x)) (log c)) l)).
  Proof.
    intros Himpl Hcs. assert (I : Inv ltb cmp impl (fun _ => []) (start (fun l => NewWithMaxLevel (lv l)) calls) (fun l => NewWithMaxLevel (lv l))).
    { apply inv_start; auto; [intros l; exists (lv l), []; reflexivity|intros l; apply new_rel]. }
    destruct (inv_runs ltb W cmp Hc impl Himpl (fun _ => []) sched _ _ I) as (c & gs & E & I'). exists c. split; auto. split; [apply (iv_log _ _ _ _ _ _ I')|]. split.
    - intros t cs Ht. pose proof (runs_length impl sched _ _ E) as Hl. cbn [start ths] in Hl. rewrite map_length in Hl.
      destruct (nth_error (ths c) t) as [th|] eqn:Eth; [|apply nth_error_None in Eth; assert (t < length calls) by (apply nth_error_Some; congruence); lia].
      exists th. split; auto. pose proof (order_start impl _ calls sched c t th E Eth) as X. rewrite Ht in X. injection X as ->. reflexivity.
    - intros l Hl. rewrite (iv_free _ _ _ _ _ _ I' l Hl). apply (slice_ok ltb). apply (iv_seq _ _ _ _ _ _ I' l).
  Qed.
  (** for the programs of SkipConc.v *)
  Theorem C53_coarse_partial (lv : nat -> Z) (calls : list (list (call K V))) (sched : list nat) :
    (forall cs k, In cs calls -> In k cs -> well_locked k = true) ->
    exists c, cruns (coarse cmp) (start (fun l => NewWithMaxLevel (lv l)) calls) sched = Some c /\
      map snd (log c) = srun (call_spec ltb) (fun _ => []) (map (fun x => snd (fst x)) (log c)) /\
      (forall l, locked c l = false -> slice (store c l) = Some (sreach (call_spec ltb) (fun _ => []) (map (fun x => snd (fst x)) (log c)) l)).
  Proof.
    intros Hcs. destruct (C53_atomic_partial (coarse cmp) lv calls sched) as (c & H1 & H2 & _ & H3); [|exact Hcs|exists c; auto].
    intros k Hk. split; [now apply coarse_strict|]. intros g Hg. now apply (coarse_alone ltb W cmp Hc).
  Qed.

  (** Locks taken in the order of some ranking of the lists: no schedule can go on for ever, and where no goroutine can make a
      step every call has returned. *)
  Theorem C54_ordered_partial (impl : call K V -> prog K V) (rank : nat -> nat) g (calls : list (list (call K V))) (sched : list nat) c :
    (forall cs k, In cs calls -> In k cs -> ordered rank [] (impl k)) -> cruns impl (start g calls) sched = Some c ->
    ((forall t, can c t = false) -> forallb over (ths c) = true) /\
    (forall f : nat -> conf K V, f 0 = c -> ~ forall n, exists t, can (f n) t = true /\ cstep impl (f n) t = Some (f (S n))).
  Proof.
    intros Ho E. split; [|intros f _; apply ends]. apply (never_stuck impl rank). apply (linv_runs impl rank sched (start g calls) c); auto. now apply linv_start.
  Qed.
  (** so it is if a list's Intersection and UnionSets are only called with lists of higher rank *)
  Theorem C54_upwards_partial (rank : nat -> nat) (lv : nat -> Z) (calls : list (list (call K V))) (sched : list nat) c :
    (forall cs k, In cs calls -> In k cs -> upwards rank k) -> cruns (coarse cmp) (start (fun l => NewWithMaxLevel (lv l)) calls) sched = Some c ->
    ((forall t, can c t = false) -> forallb over (ths c) = true) /\
    (forall f : nat -> conf K V, f 0 = c -> ~ forall n, exists t, can (f n) t = true /\ cstep (coarse cmp) (f n) t = Some (f (S n))).
  Proof. intros Ho E. apply (C54_ordered_partial (coarse cmp) rank (fun l => NewWithMaxLevel (lv l)) calls sched c); auto. intros cs k H1 H2. apply coarse_ordered. eauto. Qed.
  Lemma stuck_forever (impl : call K V -> prog K V) c : (forall t, can c t = false) -> forall sched, cruns impl c sched = Some c.
  Proof.
    intros H. assert (S1 : forall t, cstep impl c t = Some c).
    { intros t. specialize (H t). unfold can in H. unfold cstep. destruct (nth_error (ths c) t) as [[td wk h]|]; auto. destruct wk as [[k [r|l p|l w p]]|].
      - destruct td; discriminate.
      - assert (Hl : locked c l = true) by (destruct td; now apply negb_false_iff in H). now rewrite Hl.
      - destruct td; discriminate.
      - destruct td, h; auto; discriminate. }
    induction sched as [|t sched IH]; cbn [cruns]; auto. now rewrite S1.
  Qed.
End Props.

(** ** Instances *)
Local Open Scope Z_scope.
Definition cc : call Z Z -> prog Z Z := coarse Z.sub.
Definition new_lists : nat -> skiplist Z Z := fun _ => New.
Definition go (calls : list (list (call Z Z))) (sched : list nat) : option (conf Z Z) := cruns cc (start new_lists calls) sched.

Lemma got {A} (f : conf Z Z -> A) calls sched (x : A) : option_map f (go calls sched) = Some x -> exists c, go calls sched = Some c /\ f c = x.
Proof. destruct (go calls sched) as [c|]; [|discriminate]. cbn [option_map]. intros [= <-]. now exists c. Qed.

(** three goroutines, two lists; the schedule goes round *)
Definition ex_calls : list (list (call Z Z)) :=
  [[On 0 (KPut 1 10 0); On 0 (KPut 2 20 1); Meet 0 1 []]; [On 1 (KPut 2 22 0); On 0 (KRemove 1); Join 0 1 [1%nat]]; [On 0 (KPut 3 30 2); On 1 KRemoveTail; On 0 KSlice]].
Fixpoint rounds (n : nat) : list nat := match n with O => [] | S n => [0; 1; 2]%nat ++ rounds n end.
Example C53_example :
  (forall cs k, In cs ex_calls -> In k cs -> well_locked k = true) /\
  option_map (fun c => (forallb over (ths c), map (fun x => (fst (fst x), snd x)) (log c))) (go ex_calls (rounds 60)) =
  Some (true, [(0%nat, Out (KBool true)); (1%nat, Out (KBool true)); (2%nat, Out (KBool true)); (0%nat, Out (KBool true)); (2%nat, Out (KEntry (Some (2, 22))));
               (1%nat, Out (KEntry (Some (1, 10)))); (2%nat, Out (KSeen [(2, 20); (3, 30)])); (0%nat, Made []); (1%nat, Made [(2, 20); (3, 30)])]).
Proof.
  split; [|vm_compute; reflexivity]. intros cs k [<-|[<-|[<-|[]]]]; cbn; intros [<-|[<-|[<-|[]]]]; reflexivity.
Qed.
Print Assumptions C53_atomic_partial.
Print Assumptions C53_coarse_partial.
(** a finer program for Get: one step to find the node before, one to look at the next *)
Example C53_finer_example (W := Zltb_weak) : let fine (k : call Z Z) := match k with
    | On l (KGet x) => Lock l (read l (fun s => descend (below Z.sub x) (mem s) (level s) (header s)) (fun cu =>
        read l (fun s => p <- getf (mem s) (fst cu) 0 ;; match p with None => Some None | Some b => e <- entry (mem s) b ;; Some (if fst e - x =? 0 then Some e else None) end)
          (fun e => Ret (Out (KVal (option_map snd e))))))
    | _ => cc k end in
  forall k, well_locked k = true -> strict [] (fine k) /\ forall g, (forall l, reachable Z.sub (g l)) -> same_res (alone (fine k) g) (call_alone Z.sub g k).
Proof.
  intros fine k Hk. assert (Sg : sign_cmp Z.ltb Z.sub) by (intros a b; rewrite !Z.ltb_lt; lia).
  destruct k as [l o|a b rs|a b rs|a b rs]; try (split; [now apply coarse_strict|intros g Hg; now apply (coarse_alone Z.ltb Zltb_weak Z.sub Sg)]).
  destruct o; try (split; [now apply coarse_strict|intros g Hg; now apply (coarse_alone Z.ltb Zltb_weak Z.sub Sg)]). split.
  - cbn. split; [auto|]. intros s. destruct (descend _ _ _ _); cbn; auto. split; auto. intros s'. destruct (getf _ _ _) as [[b|]|]; cbn; auto. destruct (entry _ _); cbn; auto.
  - intros g Hg. cbn. unfold search. destruct (descend _ _ _ _) as [[cur us]|]; cbn; auto. rewrite upd_eq. destruct (getf _ _ _) as [[b|]|]; cbn; auto.
    + destruct (entry _ _); cbn; auto. split; auto. intros l'. unfold upd. now destruct (l' =? l)%nat.
    + split; auto. intros l'. unfold upd. now destruct (l' =? l)%nat.
Qed.

(** Two RemoveHead on a list with one entry: the second one follows a nil pointer. *)
Theorem C53_remove_head_refuted : exists calls sched,
  calls = [[On 0 (KPut 1 1 0%nat); On 0 KRemoveHead]; [On 0 KRemoveHead]] /\ go calls sched = None.
Proof. eexists. exists [0; 0; 0; 0; 0; 0; 0; 1; 1; 1; 1; 1; 1; 1; 0]%nat. split; [reflexivity|vm_compute; reflexivity]. Qed.
Print Assumptions C53_remove_head_refuted.
(** RemoveHead returns nil though the list has never been empty since the first Put returned: whenever it acts among the
    other calls, it must return an entry. *)
Theorem C53_remove_head_nil_refuted : exists sched c, go [[On 0 (KPut 1 1 0%nat); On 0 KRemoveHead]; [On 0 (KPut 2 2 0%nat); On 0 (KRemove 1)]] sched = Some c /\
  log c = [(0%nat, On 0 (KPut 1 1 0%nat), Out (KBool true)); (1%nat, On 0 (KPut 2 2 0%nat), Out (KBool true)); (1%nat, On 0 (KRemove 1), Out (KEntry (Some (1, 1))));
           (0%nat, On 0 KRemoveHead, Out (KEntry None))] /\
  forall a b, a ++ b = [On 0 (KPut 2 2 0%nat); On 0 (KRemove 1)] ->
    snd (call_spec Z.ltb (sreach (call_spec Z.ltb) (fun _ => []) (On 0 (KPut 1 1 0%nat) :: a)) (On 0 KRemoveHead)) <> Out (KEntry None).
Proof.
  exists [0; 0; 0; 0; 0; 0; 0; 0; 1; 1; 1; 1; 1; 1; 1; 1; 1; 1; 0; 0; 0; 0]%nat.
  match goal with |- exists c, go ?x ?y = _ /\ log _ = ?L /\ _ => destruct (got (@log Z Z) x y L) as (c & H1 & H2); [vm_compute; reflexivity|exists c; split; [exact H1|split; [exact H2|]]] end.
  clear H1 H2; intros a b Hab. destruct a as [|x [|y [|]]]; cbn [app] in Hab; try discriminate Hab; [|injection Hab as -> _|injection Hab as -> -> _]; vm_compute; discriminate.
Qed.
Print Assumptions C53_remove_head_nil_refuted.
(** DifferenceSets gives {1} for {1, 2} minus a list that is {}, then {1}, then {1, 2}. *)
Theorem C53_difference_refuted : exists sched c,
  go [[On 0 (KPut 1 1 0%nat); On 0 (KPut 2 2 0%nat); Minus 0 1 []]; [On 1 (KPut 1 1 0%nat); On 1 (KPut 2 2 0%nat)]] sched = Some c /\
  In (0%nat, Minus 0 1 [], Made [(1, 1)]) (log c) /\
  forall a b, a ++ b = [On 1 (KPut 1 1 0%nat); On 1 (KPut 2 2 0%nat)] ->
    snd (call_spec Z.ltb (sreach (call_spec Z.ltb) (fun _ => []) ([On 0 (KPut 1 1 0%nat); On 0 (KPut 2 2 0%nat)] ++ a)) (Minus 0 1 [])) <> Made [(1, 1)].
Proof.
  exists ([0; 0; 0; 0; 0; 0; 0; 0; 0; 0; 0; 0; 0; 0] ++ [1; 1; 1; 1; 1; 1; 1; 1; 1; 1] ++ [0; 0; 0])%nat.
  match goal with |- exists c, go ?x ?y = _ /\ _ => destruct (got (fun c => nth_error (log c) 4) x y (Some (0%nat, Minus 0 1 [], Made [(1, 1)]))) as (c & H1 & H2); [vm_compute; reflexivity|exists c; split; [exact H1|split; [exact (nth_error_In _ _ H2)|]]] end.
  clear H1 H2; intros a b Hab. destruct a as [|x [|y [|]]]; cbn [app] in Hab; try discriminate Hab; [|injection Hab as -> _|injection Hab as -> -> _]; vm_compute; discriminate.
Qed.
Print Assumptions C53_difference_refuted.

(** ** Deadlocks *)
Definition deadlock (calls : list (list (call Z Z))) (sched : list nat) : Prop :=
  exists c, go calls sched = Some c /\ forallb over (ths c) = false /\ (forall t, can c t = false) /\ forall sched', cruns cc c sched' = Some c.
Lemma deadlock_check calls sched : match go calls sched with Some c => forallb over (ths c) = false /\ forallb (fun t => negb (can c t)) (seq 0 (length (ths c))) = true | None => False end ->
  deadlock calls sched.
Proof.
  unfold deadlock. destruct (go calls sched) as [c|]; [|intros []]. intros (H1 & H2). exists c. do 2 (split; auto).
  assert (X : forall t, can c t = false).
  { intros t. destruct (Nat.lt_ge_cases t (length (ths c))) as [Ht|Ht].
    - rewrite forallb_forall in H2. apply negb_true_iff. apply H2. apply in_seq. lia.
    - unfold can. now rewrite (proj2 (nth_error_None _ _) Ht). }
  split; auto. intros sched'. now apply stuck_forever.
Qed.
(** a list with itself; two lists with each other; three in a ring *)
Theorem C54_self_refuted : (exists sched, deadlock [[Meet 0 0 []]] sched) /\ exists sched, deadlock [[Join 0 0 []]] sched.
Proof. split; [exists [0; 0]%nat|exists [0; 0; 0]%nat]; apply deadlock_check; vm_compute; auto. Qed.
Theorem C54_crossed_refuted : (exists sched, deadlock [[Meet 0 1 []]; [Meet 1 0 []]] sched) /\ (exists sched, deadlock [[Join 0 1 []]; [Join 1 0 []]] sched) /\
  exists sched, deadlock [[Meet 0 1 []]; [Join 1 2 []]; [Meet 2 0 []]] sched.
Proof.
  split; [exists [0; 0; 1; 1]%nat|split; [exists [0; 0; 1; 1; 0; 1]%nat|exists [0; 0; 1; 1; 1; 2; 2]%nat]]; apply deadlock_check; vm_compute; auto.
Qed.
Print Assumptions C54_self_refuted.
Print Assumptions C54_crossed_refuted.
Example C54_example : (forall cs k, In cs ex_calls -> In k cs -> upwards (fun l => l) k) /\ exists c, go ex_calls (rounds 2) = Some c /\ forallb over (ths c) = false /\ map (can c) [0; 1; 2]%nat = [true; true; false].
Proof.
  split; [intros cs k [<-|[<-|[<-|[]]]]; cbn; intros [<-|[<-|[<-|[]]]]; cbn; auto; lia|].
  destruct (got (fun c => (forallb over (ths c), map (can c) [0; 1; 2]%nat)) ex_calls (rounds 2) (false, [true; true; false])) as (c & H1 & H2); [vm_compute; reflexivity|].
  exists c. split; [exact H1|]. split; [exact (f_equal fst H2)|exact (f_equal snd H2)].
Qed.
Print Assumptions C54_ordered_partial.
Print Assumptions C54_upwards_partial.
