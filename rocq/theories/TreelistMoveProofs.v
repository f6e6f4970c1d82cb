(** tree/treelist: the code does not depend on where the nodes are.  Run on a copy of the nodes somewhere else in a larger
    memory it does the same to the copy, and nothing to the rest of that memory. *)
From Verif Require Import Base IndexSpec IndexModel IndexHeapModel TreelistSpec TreelistHeapModel.
From Verif Require TreelistModel.
Local Open Scope Z_scope.

(** [phi] are the places of the nodes 0, 1, ... *)
Definition pp (phi : list nat) (p q : ptr) : Prop :=
  match p, q with None, None => True | Some a, Some b => nth_error phi a = Some b | _, _ => False end.

(** what corresponds to what *)
Class Rel (X : Type) := rel : list nat -> X -> X -> Prop.
Global Instance rel_ptr : Rel ptr := pp.
Global Instance rel_unit : Rel unit := fun _ => eq.
Global Instance rel_bool : Rel bool := fun _ => eq.
Global Instance rel_Z : Rel Z := fun _ => eq.
Definition rel_eq {X} : Rel X := fun _ => eq.
Global Instance rel_list {X} : Rel (list X) := fun _ => eq.
Global Instance rel_prod {X Y} {RX : Rel X} {RY : Rel Y} : Rel (X * Y) := fun phi x y => rel phi (fst x) (fst y) /\ rel phi (snd x) (snd y).

Lemma pp_nil phi p q : pp phi p q -> isNil p = isNil q.
Proof. destruct p, q; cbn; tauto. Qed.
Lemma nth_inj (phi : list nat) a b x : NoDup phi -> nth_error phi a = Some x -> nth_error phi b = Some x -> a = b.
Proof.
  intros H H1 H2. assert (Ha : (a < length phi)%nat) by (apply nth_error_Some; congruence).
  apply (proj1 (NoDup_nth_error phi) H a b Ha). congruence.
Qed.
Lemma pp_eqp phi p q p' q' : NoDup phi -> pp phi p q -> pp phi p' q' -> eqp p p' = eqp q q'.
Proof.
  intros Hn. destruct p as [a|], q as [b|], p' as [c|], q' as [d|]; cbn; try tauto. intros H1 H2.
  destruct (Nat.eqb_spec a c) as [<-|H]; destruct (Nat.eqb_spec b d) as [<-|H']; try reflexivity.
  - congruence.
  - exfalso. apply H. eapply nth_inj; eauto.
Qed.
Lemma pp_more phi ext p q : pp phi p q -> pp (phi ++ ext) p q.
Proof. destruct p as [a|], q as [b|]; cbn; try tauto. intros H. rewrite nth_error_app1; [exact H|]. apply nth_error_Some. congruence. Qed.

Section Move.
  Context {K V : Type}.
  Notation mem := (mem K V).
  Notation M := (M K V).
  Implicit Types (m g : mem) (phi : list nat).
  #[local] Hint Extern 0 (Rel K) => exact (@rel_eq K) : typeclass_instances.
  #[local] Hint Extern 0 (Rel V) => exact (@rel_eq V) : typeclass_instances.

  Definition same_node g g' (b : nat) : Prop :=
    Parent g' b = Parent g b /\ (forall d, Children g' b d = Children g b d) /\ Size g' b = Size g b /\ Balance g' b = Balance g b /\
    Key g' b = Key g b /\ Value g' b = Value g b.
  (** the nodes of [m] are those of [g] at [phi] *)
  Record moved phi m g : Prop := {
    mv_len : length phi = next m;
    mv_nd : NoDup phi;
    mv_lt : forall b, In b phi -> (b < next g)%nat;
    mv_parent : forall a b, nth_error phi a = Some b -> pp phi (Parent m a) (Parent g b);
    mv_kid : forall a b d, nth_error phi a = Some b -> pp phi (Children m a d) (Children g b d);
    mv_size : forall a b, nth_error phi a = Some b -> Size m a = Size g b;
    mv_balance : forall a b, nth_error phi a = Some b -> Balance m a = Balance g b;
    mv_key : forall a b, nth_error phi a = Some b -> Key m a = Key g b;
    mv_value : forall a b, nth_error phi a = Some b -> Value m a = Value g b }.
  Record kept phi g g' : Prop := {
    kp_next : next g' = next g;
    kp_same : forall b, ~ In b phi -> same_node g g' b }.
  Lemma same_refl g b : same_node g g b.
  Proof. unfold same_node. auto 10. Qed.
  Lemma same_trans g g1 g2 b : same_node g g1 b -> same_node g1 g2 b -> same_node g g2 b.
  Proof.
    intros (A1 & A2 & A3 & A4 & A5 & A6) (B1 & B2 & B3 & B4 & B5 & B6). unfold same_node. rewrite B1, B3, B4, B5, B6. split; [exact A1|]. split; [|auto].
    intros d. rewrite B2. apply A2.
  Qed.
  Lemma kept_refl phi g : kept phi g g.
  Proof. constructor; [reflexivity|]. intros. apply same_refl. Qed.
  Lemma kept_trans phi g g1 g2 : kept phi g g1 -> kept phi g1 g2 -> kept phi g g2.
  Proof. intros [A1 A2] [B1 B2]. constructor; [congruence|]. intros b Hb. eapply same_trans; eauto. Qed.

  (** [e] on the nodes of [m] and [e'] on those of [g] *)
  Definition simM {X} {R : Rel X} phi (e e' : M X) : Prop := forall m g, moved phi m g ->
    match e m with
    | Ret x m' => exists y g', e' g = Ret y g' /\ rel phi x y /\ moved phi m' g' /\ kept phi g g'
    | Panic m' => exists g', e' g = Panic g' /\ moved phi m' g' /\ kept phi g g'
    | Loop => True
    end.

  Lemma s_ret {X} {R : Rel X} phi (x y : X) : rel phi x y -> simM phi (ret x) (ret y).
  Proof. intros H m g Hm. exists y, g. auto using kept_refl. Qed.
  Lemma s_panic {X} {R : Rel X} phi : simM phi (panic (X := X)) panic.
  Proof. intros m g Hm. exists g. auto using kept_refl. Qed.
  Lemma s_loop {X} {R : Rel X} phi (e : M X) : simM phi (fun _ => Loop) e.
  Proof. intros m g Hm. exact I. Qed.
  Lemma s_bind {X Y} {RX : Rel X} {RY : Rel Y} phi (e e' : M X) (f f' : X -> M Y) : simM phi e e' -> (forall x y, rel phi x y -> simM phi (f x) (f' y)) ->
    simM phi (bind e f) (bind e' f').
  Proof.
    intros H1 H2 m g Hm. unfold bind. specialize (H1 m g Hm). destruct (e m) as [x m1|m1|]; [| |exact I].
    - destruct H1 as (y & g1 & -> & Rx & M1 & K1). specialize (H2 x y Rx m1 g1 M1). destruct (f x m1) as [z m2|m2|]; [| |exact I].
      + destruct H2 as (w & g2 & -> & Rz & M2 & K2). exists w, g2. eauto using kept_trans.
      + destruct H2 as (g2 & -> & M2 & K2). exists g2. eauto using kept_trans.
    - destruct H1 as (g1 & -> & M1 & K1). eauto.
  Qed.
  Lemma s_fueled {X} {R : Rel X} phi (f f' : nat -> M X) : (forall n n', (n <= n')%nat -> simM phi (f n) (f' n')) -> simM phi (fueled f) (fueled f').
  Proof.
    intros H m g Hm. unfold fueled. apply H; [|exact Hm]. apply le_n_S. rewrite <- (mv_len _ _ _ Hm), <- (seq_length (next g) 0).
    apply NoDup_incl_length; [exact (mv_nd _ _ _ Hm)|]. intros b Hb. apply in_seq. pose proof (mv_lt _ _ _ Hm b Hb). lia.
  Qed.
  (** pointers compared *)
  Lemma s_eqp {X} {R : Rel X} phi p q p' q' (e1 e2 e1' e2' : M X) : pp phi p q -> pp phi p' q' -> simM phi e1 e1' -> simM phi e2 e2' ->
    simM phi (if eqp p p' then e1 else e2) (if eqp q q' then e1' else e2').
  Proof. intros H1 H2 H3 H4 m g Hm. rewrite (pp_eqp phi p q p' q' (mv_nd _ _ _ Hm) H1 H2). destruct (eqp q q'); [apply H3|apply H4]; exact Hm. Qed.
  Lemma s_neqp {X} {R : Rel X} phi p q p' q' (e1 e2 e1' e2' : M X) : pp phi p q -> pp phi p' q' -> simM phi e1 e1' -> simM phi e2 e2' ->
    simM phi (if negb (eqp p p') then e1 else e2) (if negb (eqp q q') then e1' else e2').
  Proof. intros H1 H2 H3 H4 m g Hm. rewrite (pp_eqp phi p q p' q' (mv_nd _ _ _ Hm) H1 H2). destruct (eqp q q'); [apply H4|apply H3]; exact Hm. Qed.
  Lemma s_eqpb phi p q p' q' : pp phi p q -> pp phi p' q' -> simM phi (ret (eqp p p')) (ret (eqp q q')).
  Proof. intros H1 H2 m g Hm. rewrite (pp_eqp phi p q p' q' (mv_nd _ _ _ Hm) H1 H2). exists (eqp q q'), g. split; [reflexivity|]. split; [reflexivity|]. auto using kept_refl. Qed.

  (** reading *)
  Lemma s_parent phi p q : pp phi p q -> simM phi (rd Parent p) (rd Parent q).
  Proof.
    intros H m g Hm. destruct p as [a|], q as [b|]; cbn in *; try tauto.
    - eexists _, _. split; [reflexivity|]. split; [apply (mv_parent _ _ _ Hm), H|]. auto using kept_refl.
    - eauto using kept_refl.
  Qed.
  Lemma s_kid phi p q d : pp phi p q -> simM phi (rdKid p d) (rdKid q d).
  Proof.
    intros H m g Hm. destruct p as [a|], q as [b|]; cbn in *; try tauto.
    - eexists _, _. split; [reflexivity|]. split; [apply (mv_kid _ _ _ Hm), H|]. auto using kept_refl.
    - eauto using kept_refl.
  Qed.
  Lemma s_size phi p q : pp phi p q -> simM phi (rd Size p) (rd Size q).
  Proof.
    intros H m g Hm. destruct p as [a|], q as [b|]; cbn in *; try tauto.
    - eexists _, _. split; [reflexivity|]. split; [apply (mv_size _ _ _ Hm), H|]. auto using kept_refl.
    - eauto using kept_refl.
  Qed.
  Lemma s_balance phi p q : pp phi p q -> simM phi (rd Balance p) (rd Balance q).
  Proof.
    intros H m g Hm. destruct p as [a|], q as [b|]; cbn in *; try tauto.
    - eexists _, _. split; [reflexivity|]. split; [apply (mv_balance _ _ _ Hm), H|]. auto using kept_refl.
    - eauto using kept_refl.
  Qed.
  Lemma s_key phi p q : pp phi p q -> simM phi (rd Key p) (rd Key q).
  Proof.
    intros H m g Hm. destruct p as [a|], q as [b|]; cbn in *; try tauto.
    - eexists _, _. split; [reflexivity|]. split; [apply (mv_key _ _ _ Hm), H|]. auto using kept_refl.
    - eauto using kept_refl.
  Qed.
  Lemma s_value phi p q : pp phi p q -> simM phi (rd Value p) (rd Value q).
  Proof.
    intros H m g Hm. destruct p as [a|], q as [b|]; cbn in *; try tauto.
    - eexists _, _. split; [reflexivity|]. split; [apply (mv_value _ _ _ Hm), H|]. auto using kept_refl.
    - eauto using kept_refl.
  Qed.

  (** writing *)
  Lemma upd_hit {X} phi a b (f f' : nat -> X) (Q : X -> X -> Prop) x y : NoDup phi -> nth_error phi a = Some b -> Q x y ->
    (forall c d, nth_error phi c = Some d -> Q (f c) (f' d)) -> forall c d, nth_error phi c = Some d -> Q (upd f a x c) (upd f' b y d).
  Proof.
    intros Hn Hab Hxy Hf c d Hcd. unfold upd. destruct (Nat.eqb_spec c a) as [->|Hc]; destruct (Nat.eqb_spec d b) as [->|Hd].
    - exact Hxy.
    - congruence.
    - exfalso. apply Hc. eapply nth_inj; eauto.
    - apply Hf, Hcd.
  Qed.
  Lemma upd_out {X} (f : nat -> X) phi a b c x : nth_error phi a = Some b -> ~ In c phi -> upd f b x c = f c.
  Proof. intros H Hc. unfold upd. destruct (Nat.eqb_spec c b) as [->|_]; [|reflexivity]. exfalso. apply Hc. eapply nth_error_In, H. Qed.

  Ltac put_field Hm H :=
    let m' := fresh in
    split; [|constructor; [reflexivity|intros c Hc; unfold same_node; cbn; rewrite ?(upd_out _ _ _ _ _ _ H Hc); auto 10]];
    destruct Hm as [L1 L2 L3 L4 L5 L6 L7 L8 L9]; constructor; cbn; auto.
  Lemma s_setParent phi p q p' q' : pp phi p q -> pp phi p' q' -> simM phi (wr (setParent p') p) (wr (setParent q') q).
  Proof.
    intros H H' m g Hm. destruct p as [a|], q as [b|]; cbn in *; try tauto; [|eauto using kept_refl].
    eexists _, _. split; [reflexivity|]. split; [reflexivity|]. put_field Hm H. apply (upd_hit phi a b); auto.
  Qed.
  Lemma s_setKid phi p q d p' q' : pp phi p q -> pp phi p' q' -> simM phi (wr (setKid d p') p) (wr (setKid d q') q).
  Proof.
    intros H H' m g Hm. destruct p as [a|], q as [b|]; cbn in *; try tauto; [|eauto using kept_refl].
    eexists _, _. split; [reflexivity|]. split; [reflexivity|]. put_field Hm H.
    intros c c' e Hc. apply (upd_hit phi a b (Children m) (Children g) (fun f f' => forall e, pp phi (f e) (f' e))); auto.
    intros e'. destruct (Bool.eqb e' d); auto.
  Qed.
  Lemma s_setSize phi p q z : pp phi p q -> simM phi (wr (setSize z) p) (wr (setSize z) q).
  Proof.
    intros H m g Hm. destruct p as [a|], q as [b|]; cbn in *; try tauto; [|eauto using kept_refl].
    eexists _, _. split; [reflexivity|]. split; [reflexivity|]. put_field Hm H. apply (upd_hit phi a b); auto.
  Qed.
  Lemma s_setBalance phi p q z : pp phi p q -> simM phi (wr (setBalance z) p) (wr (setBalance z) q).
  Proof.
    intros H m g Hm. destruct p as [a|], q as [b|]; cbn in *; try tauto; [|eauto using kept_refl].
    eexists _, _. split; [reflexivity|]. split; [reflexivity|]. put_field Hm H. apply (upd_hit phi a b); auto.
  Qed.
  Lemma s_setKey phi p q z : pp phi p q -> simM phi (wr (setKey z) p) (wr (setKey z) q).
  Proof.
    intros H m g Hm. destruct p as [a|], q as [b|]; cbn in *; try tauto; [|eauto using kept_refl].
    eexists _, _. split; [reflexivity|]. split; [reflexivity|]. put_field Hm H. apply (upd_hit phi a b); auto.
  Qed.
  Lemma s_setValue phi p q z : pp phi p q -> simM phi (wr (setValue z) p) (wr (setValue z) q).
  Proof.
    intros H m g Hm. destruct p as [a|], q as [b|]; cbn in *; try tauto; [|eauto using kept_refl].
    eexists _, _. split; [reflexivity|]. split; [reflexivity|]. put_field Hm H. apply (upd_hit phi a b); auto.
  Qed.

  Lemma pp_none phi : pp phi None None.
  Proof. exact I. Qed.
  Lemma neg_nil phi p q : pp phi p q -> negb (isNil p) = negb (isNil q).
  Proof. intros H. rewrite (pp_nil phi p q H). reflexivity. Qed.
End Move.
Create HintDb mv.
Global Hint Resolve s_panic s_loop s_parent s_kid s_size s_balance s_key s_value s_setParent s_setKid s_setSize s_setBalance s_setKey s_setValue s_eqpb pp_none : mv.

Ltac clean :=
  unfold rel_prod, rel, rel_ptr, rel_unit, rel_bool, rel_Z, rel_list, rel_eq in *;
  repeat match goal with
  | H : _ /\ _ |- _ => destruct H
  | x : (_ * _)%type |- _ => destruct x
  end; cbn [fst snd] in *;
  repeat match goal with H : ?x = ?y |- _ => is_var y; subst y end.
Ltac mv := cbv beta zeta; cbn [fst snd];
  match goal with
  | |- simM _ (bind _ _) (bind _ _) => eapply s_bind; [mv|intros ? ? ?; clean; mv]
  | |- simM _ (fueled _) (fueled _) => apply s_fueled; intros; mv
  | |- simM _ (if eqp _ _ then _ else _) _ => apply s_eqp; [eauto with mv|eauto with mv|mv|mv]
  | |- simM _ (if negb (eqp _ _) then _ else _) _ => apply s_neqp; [eauto with mv|eauto with mv|mv|mv]
  | H : pp _ ?p ?q |- simM _ (if negb (isNil ?p) then _ else _) _ => rewrite (neg_nil _ _ _ H); destruct (negb (isNil q)); mv
  | H : pp _ ?p ?q |- simM _ (if isNil ?p then _ else _) _ => rewrite (pp_nil _ _ _ H); destruct (isNil q); mv
  | |- simM _ (if ?b then _ else _) (if ?b then _ else _) => destruct b; mv
  | |- simM _ (ret (eqp _ _)) _ => eauto with mv
  | |- simM _ (ret _) (ret _) => apply s_ret; clean; auto with mv
  | |- _ => first [solve [eauto with mv]|idtac]
  end.

Section Code.
  Context {K V : Type} (cmp : K -> K -> Z).
  Notation M := (M K V).
  Implicit Types (phi : list nat) (p q : ptr).
  #[local] Hint Extern 0 (Rel K) => exact (@rel_eq K) : typeclass_instances.
  #[local] Hint Extern 0 (Rel V) => exact (@rel_eq V) : typeclass_instances.
  Notation sim := (simM (K := K) (V := V)).

  Lemma s_getSize phi p q : pp phi p q -> sim phi (getSize p) (getSize q).
  Proof.
    intros H. unfold getSize. destruct p as [a|], q as [b|]; cbn in H; try tauto; [apply s_size; exact H|apply s_ret; reflexivity].
  Qed.
  Hint Resolve s_getSize : mv.
  Lemma s_getChildrenSumSize phi p q : pp phi p q -> sim phi (getChildrenSumSize p) (getChildrenSumSize q).
  Proof. intros H. unfold getChildrenSumSize. mv. Qed.
  Lemma s_getChildrenSize phi p q : pp phi p q -> sim phi (getChildrenSize p) (getChildrenSize q).
  Proof. intros H. unfold getChildrenSize. mv. Qed.
  Hint Resolve s_getChildrenSumSize s_getChildrenSize : mv.
  Lemma s_updateBalance phi p q : pp phi p q -> sim phi (updateBalance p) (updateBalance q).
  Proof. intros H. unfold updateBalance. mv. Qed.
  Lemma s_sumSize phi p q : pp phi p q -> sim phi (sumSize p) (sumSize q).
  Proof. intros H. unfold sumSize. mv. Qed.
  Lemma s_getRelationship phi p q : pp phi p q -> sim phi (getRelationship p) (getRelationship q).
  Proof. intros H. unfold getRelationship. mv. Qed.
  Hint Resolve s_updateBalance s_sumSize s_getRelationship : mv.
  Lemma s_rotate phi L p q : pp phi p q -> sim phi (rotate L p) (rotate L q).
  Proof. intros H. unfold rotate. mv. Qed.
  Lemma s_lrotate phi p q : pp phi p q -> sim phi (lrotate p) (lrotate q).
  Proof. apply s_rotate. Qed.
  Lemma s_rrotate phi p q : pp phi p q -> sim phi (rrotate p) (rrotate q).
  Proof. apply s_rotate. Qed.
  Hint Resolve s_lrotate s_rrotate : mv.
  Lemma s_sizeRRotate phi p q : pp phi p q -> sim phi (sizeRRotate p) (sizeRRotate q).
  Proof. intros H. unfold sizeRRotate. mv. Qed.
  Lemma s_sizeLRotate phi p q : pp phi p q -> sim phi (sizeLRotate p) (sizeLRotate q).
  Proof. intros H. unfold sizeLRotate. mv. Qed.
  Hint Resolve s_sizeLRotate s_sizeRRotate : mv.
  Lemma s_lastNode phi d n : forall n' p q, (n <= n')%nat -> pp phi p q -> sim phi (lastNode d n p) (lastNode d n' q).
  Proof. induction n as [|n IH]; intros [|n'] p q Hn H; try lia; cbn [lastNode]; try apply s_loop. assert (n <= n')%nat by lia. mv. Qed.
  Hint Resolve s_lastNode : mv.
  Lemma s_getRangeRoot phi lo hi n : forall n' p q, (n <= n')%nat -> pp phi p q -> sim phi (getRangeRoot cmp lo hi n p) (getRangeRoot cmp lo hi n' q).
  Proof. induction n as [|n IH]; intros [|n'] p q Hn H; try lia; cbn [getRangeRoot]; try apply s_loop. assert (n <= n')%nat by lia. mv. Qed.
  Hint Resolve s_getRangeRoot : mv.
  Lemma s_adopt phi d p q p' q' : pp phi p q -> pp phi p' q' -> sim phi (adopt d p p') (adopt d q q').
  Proof. intros H H'. unfold adopt. mv. Qed.
  Hint Resolve s_adopt : mv.
  Lemma s_fixRemoveRange phi p q : pp phi p q -> sim phi (fixRemoveRange p) (fixRemoveRange q).
  Proof. intros H. unfold fixRemoveRange. mv. Qed.
  Hint Resolve s_fixRemoveRange : mv.
  Lemma s_growUp phi z r s n : forall n' p q, (n <= n')%nat -> pp phi r s -> pp phi p q -> sim phi (growUp z r n p) (growUp z s n' q).
  Proof. induction n as [|n IH]; intros [|n'] p q Hn H' H; try lia; cbn [growUp]; try apply s_loop. assert (n <= n')%nat by lia. mv. Qed.
  Hint Resolve s_growUp : mv.
  Lemma s_rangeRootAt phi lo hi n : forall n' z p q, (n <= n')%nat -> pp phi p q -> sim phi (rangeRootAt lo hi n z p) (rangeRootAt lo hi n' z q).
  Proof. induction n as [|n IH]; intros [|n'] z p q Hn H; try lia; cbn [rangeRootAt]; try apply s_loop. assert (n <= n')%nat by lia. mv. Qed.
  Hint Resolve s_rangeRootAt : mv.
  Lemma s_keep phi d k n : forall n' p q, (n <= n')%nat -> pp phi p q -> sim phi (keep cmp d k n p) (keep cmp d k n' q).
  Proof. induction n as [|n IH]; intros [|n'] p q Hn H; try lia; cbn [keep]; try apply s_loop. assert (n <= n')%nat by lia. mv. Qed.
  Hint Resolve s_keep : mv.
  Lemma s_keepAt phi d k n : forall n' z p q, (n <= n')%nat -> pp phi p q -> sim phi (keepAt d k n z p) (keepAt d k n' z q).
  Proof. induction n as [|n IH]; intros [|n'] z p q Hn H; try lia; cbn [keepAt]; try apply s_loop. assert (n <= n')%nat by lia. mv. Qed.
  Hint Resolve s_keepAt : mv.
  Lemma s_traverasl phi go n : forall n' p q l, (n <= n')%nat -> pp phi p q -> sim phi (traverasl go n p l) (traverasl go n' q l).
  Proof. induction n as [|n IH]; intros [|n'] p q l Hn H; try lia; cbn [traverasl]; try apply s_loop. assert (n <= n')%nat by lia. mv. Qed.
  Lemma s_getNodeLoop phi k n : forall n' p q, (n <= n')%nat -> pp phi p q -> sim phi (getNodeLoop cmp k n p) (getNodeLoop cmp k n' q).
  Proof. induction n as [|n IH]; intros [|n'] p q Hn H; try lia; cbn [getNodeLoop]; try apply s_loop. assert (n <= n')%nat by lia. mv. Qed.
  Lemma s_indexLoop phi i n : forall n' z p q, (n <= n')%nat -> pp phi p q -> sim phi (indexLoop i n z p) (indexLoop i n' z q).
  Proof. induction n as [|n IH]; intros [|n'] z p q Hn H; try lia; cbn [indexLoop]; try apply s_loop. assert (n <= n')%nat by lia. mv. Qed.
  Lemma s_indexOfLoop phi k n : forall n' z p q, (n <= n')%nat -> pp phi p q -> sim phi (indexOfLoop cmp k n z p) (indexOfLoop cmp k n' z q).
  Proof. induction n as [|n IH]; intros [|n'] z p q Hn H; try lia; cbn [indexOfLoop]; try apply s_loop. assert (n <= n')%nat by lia. mv. Qed.
  Hint Resolve s_traverasl s_getNodeLoop s_indexLoop s_indexOfLoop : mv.

  Section Root.
  Context (r r' : nat).
  Notation at_root phi := (pp phi (Some r) (Some r')).
  Lemma s_getRoot phi : at_root phi -> sim phi (getRoot r) (getRoot r').
  Proof. intros H. unfold getRoot. mv. Qed.
  Hint Resolve s_getRoot : mv.
  Lemma s_getNode phi k : at_root phi -> sim phi (getNode cmp r k) (getNode cmp r' k).
  Proof. intros H. unfold getNode. mv. Qed.
  Lemma s_index phi i : at_root phi -> sim phi (index r i) (index r' i).
  Proof. intros H. unfold index. mv. Qed.
  Lemma s_IndexOf phi k : at_root phi -> sim phi (IndexOf cmp r k) (IndexOf cmp r' k).
  Proof. intros H. unfold IndexOf. mv. Qed.
  Lemma s_Traverse phi go : at_root phi -> sim phi (Traverse r go) (Traverse r' go).
  Proof. intros H. unfold Traverse. mv. Qed.
  Lemma s_treeSize phi : at_root phi -> sim phi (treeSize r) (treeSize r').
  Proof. intros H. unfold treeSize. mv. Qed.
  Lemma s_fixRemoveSize phi n : forall n' p q, (n <= n')%nat -> at_root phi -> pp phi p q -> sim phi (fixRemoveSize r n p) (fixRemoveSize r' n' q).
  Proof. induction n as [|n IH]; intros [|n'] p q Hn H' H; try lia; cbn [fixRemoveSize]; try apply s_loop. assert (n <= n')%nat by lia. mv. Qed.
  Hint Resolve s_fixRemoveSize : mv.
  Lemma s_replaceBy phi L p q : at_root phi -> pp phi p q -> sim phi (replaceBy r L p) (replaceBy r' L q).
  Proof. intros H' H. unfold replaceBy. mv. Qed.
  Lemma s_sumUp phi n : forall n' p q, (n <= n')%nat -> at_root phi -> pp phi p q -> sim phi (sumUp r n p) (sumUp r' n' q).
  Proof. induction n as [|n IH]; intros [|n'] p q Hn H' H; try lia; cbn [sumUp]; try apply s_loop. assert (n <= n')%nat by lia. mv. Qed.
  Hint Resolve s_sumUp : mv.
  Lemma s_mergeGroups phi p q p1 q1 p2 q2 z LR : at_root phi -> pp phi p q -> pp phi p1 q1 -> pp phi p2 q2 ->
    sim phi (mergeGroups r p p1 p2 z LR) (mergeGroups r' q q1 q2 z LR).
  Proof. intros H' H H1 H2. unfold mergeGroups. mv. Qed.
  Lemma s_shrinkUp phi z n : forall n' p q, (n <= n')%nat -> at_root phi -> pp phi p q -> sim phi (shrinkUp r z n p) (shrinkUp r' z n' q).
  Proof. induction n as [|n IH]; intros [|n'] p q Hn H' H; try lia; cbn [shrinkUp]; try apply s_loop. assert (n <= n')%nat by lia. mv. Qed.
  Hint Resolve s_mergeGroups s_shrinkUp : mv.
  Lemma s_closeCut phi p q p1 q1 p2 q2 : at_root phi -> pp phi p q -> pp phi p1 q1 -> pp phi p2 q2 ->
    sim phi (closeCut r p p1 p2) (closeCut r' q q1 q2).
  Proof. intros H' H H1 H2. unfold closeCut. rewrite (pp_nil _ _ _ H1), (pp_nil _ _ _ H2). mv. Qed.
  Lemma s_newRoot phi p q : at_root phi -> pp phi p q -> sim phi (newRoot r p) (newRoot r' q).
  Proof. intros H' H. unfold newRoot. mv. Qed.
  Lemma s_fixPutSize phi n : forall n' p q, (n <= n')%nat -> at_root phi -> pp phi p q -> sim phi (fixPutSize r n p) (fixPutSize r' n' q).
  Proof. induction n as [|n IH]; intros [|n'] p q Hn H' H; try lia; cbn [fixPutSize]; try apply s_loop. assert (n <= n')%nat by lia. mv. Qed.
  Hint Resolve s_fixPutSize : mv.
  Lemma s_fixPutLoop phi n : forall n' z p q, (n <= n')%nat -> at_root phi -> pp phi p q -> sim phi (fixPutLoop r n z p) (fixPutLoop r' n' z q).
  Proof. induction n as [|n IH]; intros [|n'] z p q Hn H' H; try lia; cbn [fixPutLoop]; try apply s_loop. assert (n <= n')%nat by lia. mv. Qed.
  Hint Resolve s_fixPutLoop : mv.
  Lemma s_fixPut phi p q : at_root phi -> pp phi p q -> sim phi (fixPut r p) (fixPut r' q).
  Proof. intros H' H. unfold fixPut. mv. Qed.
  End Root.
End Code.
Global Hint Resolve s_getSize s_getRoot s_getNode s_index s_IndexOf s_Traverse s_treeSize s_getRelationship s_fixRemoveSize s_getChildrenSize
  s_replaceBy s_lastNode s_getRangeRoot s_adopt s_rangeRootAt s_keep s_keepAt s_closeCut s_newRoot s_fixPut : mv.

(** ** The same with Direct pointers; new nodes are put in new places. *)
Definition more (phi phi' : list nat) : Prop := exists ext, phi' = phi ++ ext.
Lemma more_refl phi : more phi phi.
Proof. exists []. symmetry. apply app_nil_r. Qed.
Lemma pp_mono phi phi' p q : more phi phi' -> pp phi p q -> pp phi' p q.
Proof. intros (ext & ->). apply pp_more. Qed.

Section MoveT.
  Context {K V : Type}.
  Notation tmem := (tmem K V).
  Notation TM := (TM K V).
  Implicit Types (m g : tmem) (phi : list nat).
  #[local] Hint Extern 0 (Rel K) => exact (@rel_eq K) : typeclass_instances.
  #[local] Hint Extern 0 (Rel V) => exact (@rel_eq V) : typeclass_instances.

  Definition same_tnode g g' (b : nat) : Prop := same_node (base g) (base g') b /\ forall d, Direct g' b d = Direct g b d.
  Record tmoved phi m g : Prop := {
    tm_base : moved phi (base m) (base g);
    tm_dir : forall a b d, nth_error phi a = Some b -> pp phi (Direct m a d) (Direct g b d) }.
  (** [phi'] are the places after the code, [g'] the memory *)
  Record tkept phi g phi' g' : Prop := {
    tk_grown : exists ext, phi' = phi ++ ext /\ forall b, In b ext -> (next (base g) <= b)%nat;
    tk_next : (next (base g) <= next (base g'))%nat;
    tk_same : forall b, ~ In b phi -> (b < next (base g))%nat -> same_tnode g g' b }.
  Lemma tsame_refl g b : same_tnode g g b.
  Proof. split; [apply same_refl|reflexivity]. Qed.
  Lemma tkept_refl phi g : tkept phi g phi g.
  Proof. constructor; [exists []; split; [symmetry; apply app_nil_r|intros b []]|lia|]. intros. apply tsame_refl. Qed.
  Lemma tkept_trans phi g phi1 g1 phi2 g2 : tkept phi g phi1 g1 -> tkept phi1 g1 phi2 g2 -> tkept phi g phi2 g2.
  Proof.
    intros [(x1 & -> & A1) A2 A3] [(x2 & -> & B1) B2 B3]. constructor; [|lia|].
    - exists (x1 ++ x2). split; [symmetry; apply app_assoc|]. intros b Hb. apply in_app_or in Hb as [Hb|Hb]; [auto|]. specialize (B1 b Hb). lia.
    - intros b Hb Hl. destruct (A3 b Hb Hl) as (S1 & D1). destruct (B3 b) as (S2 & D2); [|lia|].
      + intros X. apply in_app_or in X as [X|X]; [auto|]. specialize (A1 b X). lia.
      + split; [eapply same_trans; eassumption|]. intros d. rewrite D2. apply D1.
  Qed.
  Lemma tkept_more phi g phi' g' : tkept phi g phi' g' -> more phi phi'.
  Proof. intros [(x & -> & _) _ _]. exists x. reflexivity. Qed.

  Definition simT {X} {R : Rel X} phi (e e' : TM X) : Prop := forall m g, tmoved phi m g ->
    match e m with
    | Done x m' => exists phi' y g', e' g = Done y g' /\ rel phi' x y /\ tmoved phi' m' g' /\ tkept phi g phi' g'
    | Fail m' => exists phi' g', e' g = Fail g' /\ tmoved phi' m' g' /\ tkept phi g phi' g'
    | Forever => True
    end.

  Lemma t_pure {X} {R : Rel X} phi (x y : X) : rel phi x y -> simT phi (pure x) (pure y).
  Proof. intros H m g Hm. exists phi, y, g. auto using tkept_refl. Qed.
  Lemma t_fail {X} {R : Rel X} phi : simT phi (fail (X := X)) fail.
  Proof. intros m g Hm. exists phi, g. auto using tkept_refl. Qed.
  Lemma t_forever {X} {R : Rel X} phi (e : TM X) : simT phi (fun _ => Forever) e.
  Proof. intros m g Hm. exact I. Qed.
  Lemma t_bind {X Y} {RX : Rel X} {RY : Rel Y} phi (e e' : TM X) (f f' : X -> TM Y) : simT phi e e' ->
    (forall phi' x y, more phi phi' -> rel phi' x y -> simT phi' (f x) (f' y)) -> simT phi (tbind e f) (tbind e' f').
  Proof.
    intros H1 H2 m g Hm. unfold tbind. specialize (H1 m g Hm). destruct (e m) as [x m1|m1|]; [| |exact I].
    - destruct H1 as (phi1 & y & g1 & -> & Rx & M1 & K1). specialize (H2 phi1 x y (tkept_more _ _ _ _ K1) Rx m1 g1 M1). destruct (f x m1) as [z m2|m2|]; [| |exact I].
      + destruct H2 as (phi2 & w & g2 & -> & Rz & M2 & K2). exists phi2, w, g2. eauto using tkept_trans.
      + destruct H2 as (phi2 & g2 & -> & M2 & K2). exists phi2, g2. eauto using tkept_trans.
    - destruct H1 as (phi1 & g1 & -> & M1 & K1). eauto.
  Qed.
  Lemma t_lift {X} {R : Rel X} phi (e e' : M K V X) : simM phi e e' -> simT phi (lift e) (lift e').
  Proof.
    intros H m g [Hb Hd]. unfold lift. specialize (H (base m) (base g) Hb).
    assert (Hk : forall g1 : mem K V, kept phi (base g) g1 -> tkept phi g phi (TMem g1 (Direct g))).
    { intros g1 [X1 X2]. constructor; cbn [base Direct]; [exists []; split; [symmetry; apply app_nil_r|intros b []]|lia|]. intros b Hb' _. split; [apply X2, Hb'|reflexivity]. }
    destruct (e (base m)) as [x b|b|]; [| |exact I].
    - destruct H as (y & g1 & -> & Rx & M1 & K1). exists phi, y, (TMem g1 (Direct g)). split; [reflexivity|]. split; [exact Rx|]. split; [constructor; assumption|apply Hk, K1].
    - destruct H as (g1 & -> & M1 & K1). exists phi, (TMem g1 (Direct g)). split; [reflexivity|]. split; [constructor; assumption|apply Hk, K1].
  Qed.
  Lemma t_fueled {X} {R : Rel X} phi (f f' : nat -> TM X) : (forall n n', (n <= n')%nat -> simT phi (f n) (f' n')) -> simT phi (tfueled f) (tfueled f').
  Proof.
    intros H m g Hm. unfold tfueled. apply H; [|exact Hm]. destruct Hm as [Hm _]. apply le_n_S. rewrite <- (mv_len _ _ _ Hm), <- (seq_length (next (base g)) 0).
    apply NoDup_incl_length; [exact (mv_nd _ _ _ Hm)|]. intros b Hb. apply in_seq. pose proof (mv_lt _ _ _ Hm b Hb). lia.
  Qed.
  Lemma t_neqp {X} {R : Rel X} phi p q p' q' (e1 e2 e1' e2' : TM X) : pp phi p q -> pp phi p' q' -> simT phi e1 e1' -> simT phi e2 e2' ->
    simT phi (if negb (eqp p p') then e1 else e2) (if negb (eqp q q') then e1' else e2').
  Proof. intros H1 H2 H3 H4 m g Hm. rewrite (pp_eqp phi p q p' q' (mv_nd _ _ _ (tm_base _ _ _ Hm)) H1 H2). destruct (eqp q q'); [apply H4|apply H3]; exact Hm. Qed.

  Lemma t_dir phi p q d : pp phi p q -> simT phi (rdDir p d) (rdDir q d).
  Proof.
    intros H m g Hm. destruct p as [a|], q as [b|]; cbn in *; try tauto.
    - eexists _, _, _. split; [reflexivity|]. split; [apply (tm_dir _ _ _ Hm), H|]. auto using tkept_refl.
    - eauto using tkept_refl.
  Qed.
  Lemma t_setDir phi p q d p' q' : pp phi p q -> pp phi p' q' -> simT phi (wrDir p d p') (wrDir q d q').
  Proof.
    intros H H' m g [Hb Hd]. destruct p as [a|], q as [b|]; cbn in *; try tauto; [|exists phi, g; split; [reflexivity|]; split; [constructor; assumption|apply tkept_refl]].
    exists phi, tt, (setDir d q' b g). split; [reflexivity|]. split; [reflexivity|]. split.
    - constructor; [exact Hb|]. intros c c' e Hc. cbn. destruct (Nat.eqb_spec c a) as [->|Ha]; destruct (Nat.eqb_spec c' b) as [->|Hb']; cbn [andb].
      + destruct (Bool.eqb e d); auto.
      + congruence.
      + exfalso. apply Ha. eapply nth_inj; [exact (mv_nd _ _ _ Hb)|eassumption..].
      + apply Hd, Hc.
    - constructor; [exists []; split; [symmetry; apply app_nil_r|intros x []]|cbn; lia|]. intros c Hc _. split; [apply same_refl|]. intros e. cbn.
      destruct (Nat.eqb_spec c b) as [->|_]; [|reflexivity]. exfalso. apply Hc. eapply nth_error_In, H.
  Qed.
  Lemma t_alloc phi p q z k v : pp phi p q -> simT phi (talloc p z k v) (talloc q z k v).
  Proof.
    intros H m g [Hb Hd]. pose proof Hb as [L1 L2 L3 L4 L5 L6 L7 L8 L9]. cbn. set (n := next (base m)) in *. set (n' := next (base g)) in *.
    assert (Hnew : forall a b, nth_error (phi ++ [n']) a = Some b -> nth_error phi a = Some b /\ a <> n /\ b <> n' \/ a = n /\ b = n').
    { intros a b Hab. destruct (Nat.ltb_spec a (length phi)) as [Hl|Hl].
      - rewrite nth_error_app1 in Hab by exact Hl. left. split; [exact Hab|]. split; [lia|]. intros ->. apply nth_error_In, L3 in Hab. lia.
      - rewrite nth_error_app2 in Hab by exact Hl. right. destruct (a - length phi)%nat as [|x] eqn:Ex; cbn in Hab; [|destruct x; discriminate].
        split; [lia|congruence]. }
    eexists (phi ++ [n']), _, _. split; [reflexivity|]. split.
    { unfold rel, rel_ptr, pp. rewrite nth_error_app2 by lia. rewrite L1, Nat.sub_diag. reflexivity. }
    assert (F : forall X (Q : X -> X -> Prop) (f f' : nat -> X) x y, Q x y -> (forall a b, nth_error phi a = Some b -> Q (f a) (f' b)) ->
      forall a b, nth_error (phi ++ [n']) a = Some b -> Q (upd f n x a) (upd f' n' y b)).
    { intros X Q f f' x y Hxy Hf a b Hab. unfold upd. destruct (Hnew a b Hab) as [(H1 & H2 & H3)|(-> & ->)].
      - apply Nat.eqb_neq in H2, H3. rewrite H2, H3. apply Hf, H1.
      - rewrite !Nat.eqb_refl. exact Hxy. }
    split; [constructor; [constructor|]; cbn|].
    - rewrite app_length. cbn. unfold n. lia.
    - apply NoDup_Add with (a := n') (l := phi); [rewrite <- (app_nil_r phi) at 1; apply Add_app|]. split; [exact L2|]. intros X. apply L3 in X. lia.
    - intros b X. apply in_app_or in X as [X|[<-|[]]]; [apply L3 in X; lia|lia].
    - apply F; [apply pp_more, H|]. intros a b Hab. apply pp_more, L4, Hab.
    - intros a b d Hab. apply (F _ (fun f f' => forall d, pp (phi ++ [n']) (f d) (f' d))); [intros; exact I| |exact Hab]. intros a' b' Hab' d'. apply pp_more, L5, Hab'.
    - apply F; auto.
    - apply F; auto.
    - apply F; auto.
    - apply F; auto.
    - intros a b d Hab. apply (F _ (fun f f' => forall d, pp (phi ++ [n']) (f d) (f' d))); [intros; exact I| |exact Hab]. intros a' b' Hab' d'. apply pp_more, Hd, Hab'.
    - constructor; cbn.
      + exists [n']. split; [reflexivity|]. intros b [<-|[]]. lia.
      + lia.
      + intros b Hb' Hl. assert (Hne : Nat.eqb b n' = false) by (apply Nat.eqb_neq; unfold n'; lia). unfold same_tnode, same_node, upd. cbn. rewrite Hne. auto 10.
  Qed.
End MoveT.
Global Hint Resolve t_fail t_forever t_lift t_dir t_setDir t_alloc : mv.
Ltac lead := repeat match goal with H : pp ?phi _ _, Hm : more ?phi _ |- _ => apply (pp_mono _ _ _ _ Hm) in H end; repeat match goal with Hm : more _ _ |- _ => clear Hm end.
Ltac tmv := cbv beta zeta; cbn [fst snd];
  match goal with
  | |- simT _ (tbind _ _) (tbind _ _) => eapply t_bind; [tmv|intros ? ? ? ? ?; lead; clean; tmv]
  | |- simT _ (tfueled _) (tfueled _) => apply t_fueled; intros; tmv
  | |- simT _ (lift _) (lift _) => apply t_lift; mv
  | |- simT _ (if negb (eqp _ _) then _ else _) _ => apply t_neqp; [eauto with mv|eauto with mv|tmv|tmv]
  | H : pp _ ?p ?q |- simT _ (if negb (isNil ?p) then _ else _) _ => rewrite (neg_nil _ _ _ H); destruct (negb (isNil q)); tmv
  | H : pp _ ?p ?q |- simT _ (if isNil ?p then _ else _) _ => rewrite (pp_nil _ _ _ H); destruct (isNil q); tmv
  | |- simT _ (if ?b then _ else _) (if ?b then _ else _) => destruct b; tmv
  | |- simT _ (match ?b with Some _ => _ | None => _ end) (match ?b with Some _ => _ | None => _ end) => destruct b; tmv
  | |- simT _ (pure _) (pure _) => apply t_pure; clean;
      try match goal with H : pp _ ?p ?q |- context [isNil ?p] => rewrite (pp_nil _ _ _ H); destruct (isNil q) end; auto with mv
  | |- _ => first [solve [eauto with mv]|idtac]
  end.

Section CodeT.
  Context {K V : Type} (cmp : K -> K -> Z) (r r' : nat).
  Notation TM := (TM K V).
  Implicit Types (phi : list nat) (p q : ptr).
  #[local] Hint Extern 0 (Rel K) => exact (@rel_eq K) : typeclass_instances.
  #[local] Hint Extern 0 (Rel V) => exact (@rel_eq V) : typeclass_instances.
  #[local] Hint Extern 0 (Rel (option V)) => exact (@rel_eq (option V)) : typeclass_instances.
  #[local] Hint Extern 0 (Rel (option (K * V))) => exact (@rel_eq (option (K * V))) : typeclass_instances.
  Notation sim := (simT (K := K) (V := V)).
  Notation at_root phi := (pp phi (Some r) (Some r')).

  Lemma t_initRootNode phi k v : at_root phi -> sim phi (initRootNode r k v) (initRootNode r' k v).
  Proof. intros H. unfold initRootNode. tmv. Qed.
  Lemma t_attachNode phi p q d k v p1 q1 p2 q2 : at_root phi -> pp phi p q -> pp phi p1 q1 -> pp phi p2 q2 ->
    sim phi (attachNode r p d k v p1 p2) (attachNode r' q d k v q1 q2).
  Proof. intros H H1 H2 H3. unfold attachNode. tmv. Qed.
  Hint Resolve t_initRootNode t_attachNode : mv.
  Lemma t_putLoop phi f k v n : forall n' p q p1 q1 p2 q2, (n <= n')%nat -> at_root phi -> pp phi p q -> pp phi p1 q1 -> pp phi p2 q2 ->
    sim phi (putLoop cmp r f k v n p p1 p2) (putLoop cmp r' f k v n' q q1 q2).
  Proof.
    revert phi. induction n as [|n IH]; intros phi [|n'] p q p1 q1 p2 q2 Hn H H1 H2 H3; try lia; cbn [putLoop]; try apply t_forever. assert (n <= n')%nat by lia. tmv.
  Qed.
  Hint Resolve t_putLoop : mv.
  Lemma t_putWith phi k v b1 b2 f : at_root phi -> sim phi (putWith cmp r k v b1 b2 f) (putWith cmp r' k v b1 b2 f).
  Proof. intros H. unfold putWith. tmv. Qed.
  Lemma t_slice phi p q : pp phi p q -> sim phi (slice p) (slice q).
  Proof. intros H. unfold slice. tmv. Qed.
  Hint Resolve t_slice : mv.
  Lemma t_Get phi k : at_root phi -> sim phi (Get cmp r k) (Get cmp r' k).
  Proof. intros H. unfold Get. tmv. Qed.
  Lemma t_Index phi i : at_root phi -> sim phi (Index r i) (Index r' i).
  Proof. intros H. unfold Index. tmv. Qed.
  Lemma t_unlink phi p q p1 q1 : at_root phi -> pp phi p q -> pp phi p1 q1 -> sim phi (unlink r p p1) (unlink r' q q1).
  Proof. intros H H1 H2. unfold unlink. tmv. Qed.
  Lemma t_takeOver phi L p q : at_root phi -> pp phi p q -> sim phi (takeOver r L p) (takeOver r' L q).
  Proof. intros H H1. unfold takeOver. tmv. Qed.
  Hint Resolve t_unlink t_takeOver : mv.
  Lemma t_removeNode phi p q : at_root phi -> pp phi p q -> sim phi (removeNode r p) (removeNode r' q).
  Proof. intros H H1. unfold removeNode. tmv. Qed.
  Hint Resolve t_removeNode : mv.
  Lemma t_Remove phi k : at_root phi -> sim phi (Remove cmp r k) (Remove cmp r' k).
  Proof. intros H. unfold Remove. tmv. Qed.
  Hint Resolve t_Remove : mv.
  Lemma t_RemoveIndex phi i : at_root phi -> sim phi (RemoveIndex r i) (RemoveIndex r' i).
  Proof. intros H. unfold RemoveIndex. tmv. Qed.
  Lemma t_endOf phi d : at_root phi -> sim phi (endOf r d) (endOf r' d).
  Proof. intros H. unfold endOf. tmv. Qed.
  Lemma t_removeEnd phi d : at_root phi -> sim phi (removeEnd r d) (removeEnd r' d).
  Proof. intros H. unfold removeEnd. tmv. Qed.
  Lemma t_trim phi d k n : forall n' p q p1 q1, (n <= n')%nat -> pp phi p q -> pp phi p1 q1 -> sim phi (trim cmp d k n p p1) (trim cmp d k n' q q1).
  Proof.
    revert phi. induction n as [|n IH]; intros phi [|n'] p q p1 q1 Hn H1 H2; try lia; cbn [trim]; try apply t_forever. assert (n <= n')%nat by lia. tmv.
  Qed.
  Hint Resolve t_trim : mv.
  Lemma t_trimAt phi d k n : forall n' z e p q p1 q1, (n <= n')%nat -> pp phi p q -> pp phi p1 q1 -> sim phi (trimAt d k n z e p p1) (trimAt d k n' z e q q1).
  Proof.
    revert phi. induction n as [|n IH]; intros phi [|n'] z e p q p1 q1 Hn H1 H2; try lia; cbn [trimAt]; try apply t_forever. assert (n <= n')%nat by lia. tmv.
  Qed.
  Hint Resolve t_trimAt : mv.
  Lemma t_side phi d p q f f' : pp phi p q -> (forall phi' x y, more phi phi' -> pp phi' x y -> sim phi' (f x) (f' y)) -> sim phi (side d p f) (side d q f').
  Proof.
    intros H Hf. unfold side. eapply t_bind; [tmv|]. intros phi1 x y Hm Hxy. specialize (Hf phi1 x y Hm). lead. clean. tmv.
  Qed.
  Lemma t_RemoveRange phi lo hi : at_root phi -> sim phi (RemoveRange cmp r lo hi) (RemoveRange cmp r' lo hi).
  Proof. intros H. unfold RemoveRange. tmv; (apply t_side; [eauto with mv|]; intros; lead; tmv). Qed.
  Lemma t_RemoveRangeByIndex phi lo hi : at_root phi -> sim phi (RemoveRangeByIndex r lo hi) (RemoveRangeByIndex r' lo hi).
  Proof. intros H. unfold RemoveRangeByIndex. tmv; (apply t_side; [eauto with mv|]; intros; lead; tmv). Qed.
  Lemma t_closeEnd phi d p q : at_root phi -> pp phi p q -> sim phi (closeEnd r d p) (closeEnd r' d q).
  Proof. intros H H1. unfold closeEnd. tmv. Qed.
  Hint Resolve t_closeEnd : mv.
  Lemma t_settle phi p q : at_root phi -> pp phi p q -> sim phi (settle r p) (settle r' q).
  Proof. intros H H1. unfold settle. tmv. Qed.
  Hint Resolve t_settle : mv.
  Lemma t_Trim phi lo hi : at_root phi -> sim phi (Trim cmp r lo hi) (Trim cmp r' lo hi).
  Proof. intros H. unfold Trim. tmv. Qed.
  Lemma t_TrimByIndex phi lo hi : at_root phi -> sim phi (TrimByIndex r lo hi) (TrimByIndex r' lo hi).
  Proof. intros H. unfold TrimByIndex. tmv. Qed.
  Lemma t_Clear phi : at_root phi -> sim phi (Clear r) (Clear r').
  Proof. intros H. unfold Clear. tmv. Qed.
End CodeT.
