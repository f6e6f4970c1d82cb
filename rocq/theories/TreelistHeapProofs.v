(** tree/treelist in memory: code that does not touch the Value fields does the same whatever they hold.  So the values can
    be taken to be those of TreelistModel.v, which go with the number of the node. *)
From Verif Require Import Base Bind Machine AvlTree IndexSpec TreelistSpec TreelistModel IndexModel IndexHeapModel IndexHeapProofs TreelistHeapModel.
Local Open Scope Z_scope.

(** ** Other values in the nodes *)
Section With.
  Context {K V W : Type}.
  Definition withV (f : nat -> W) (m : mem K V) : mem K W := Mem (Parent m) (Children m) (Size m) (Balance m) (Key m) f (next m).
  Definition rmap {X} (f : nat -> W) (r : res K V X) : res K W X :=
    match r with Ret x m => Ret x (withV f m) | Panic m => Panic (withV f m) | Loop => Loop end.
  Definition agree {X} (e1 : M K V X) (e2 : M K W X) : Prop := forall m f, e2 (withV f m) = rmap f (e1 m).

  Lemma a_ret {X} (x : X) : agree (ret x) (ret x).
  Proof. intros m f. reflexivity. Qed.
  Lemma a_panic {X} : agree (panic (X := X)) panic.
  Proof. intros m f. reflexivity. Qed.
  Lemma a_loop {X} : agree (fun _ => Loop (X := X)) (fun _ => Loop).
  Proof. intros m f. reflexivity. Qed.
  Lemma a_bind {X Y} (e1 : M K V X) (e2 : M K W X) (f1 : X -> M K V Y) (f2 : X -> M K W Y) :
    agree e1 e2 -> (forall x, agree (f1 x) (f2 x)) -> agree (bind e1 f1) (bind e2 f2).
  Proof. intros H1 H2 m f. unfold bind. rewrite H1. destruct (e1 m); cbn [rmap]; [apply H2|reflexivity..]. Qed.
  Lemma a_parent p : agree (rd Parent p) (rd Parent p).
  Proof. intros m f. destruct p; reflexivity. Qed.
  Lemma a_size p : agree (rd Size p) (rd Size p).
  Proof. intros m f. destruct p; reflexivity. Qed.
  Lemma a_balance p : agree (rd Balance p) (rd Balance p).
  Proof. intros m f. destruct p; reflexivity. Qed.
  Lemma a_key p : agree (rd Key p) (rd Key p).
  Proof. intros m f. destruct p; reflexivity. Qed.
  Lemma a_kid p d : agree (rdKid p d) (rdKid p d).
  Proof. intros m f. destruct p; reflexivity. Qed.
  Lemma a_setParent q p : agree (wr (setParent q) p) (wr (setParent q) p).
  Proof. intros m f. destruct p; reflexivity. Qed.
  Lemma a_setKid d q p : agree (wr (setKid d q) p) (wr (setKid d q) p).
  Proof. intros m f. destruct p; reflexivity. Qed.
  Lemma a_setSize z p : agree (wr (setSize z) p) (wr (setSize z) p).
  Proof. intros m f. destruct p; reflexivity. Qed.
  Lemma a_setBalance z p : agree (wr (setBalance z) p) (wr (setBalance z) p).
  Proof. intros m f. destruct p; reflexivity. Qed.
  Lemma a_fueled {X} (e1 : nat -> M K V X) (e2 : nat -> M K W X) : (forall n, agree (e1 n) (e2 n)) -> agree (fueled e1) (fueled e2).
  Proof. intros H m f. unfold fueled. cbn [next withV]. apply H. Qed.
  Lemma a_if {X} (b : bool) (e1 f1 : M K V X) (e2 f2 : M K W X) : agree e1 e2 -> agree f1 f2 -> agree (if b then e1 else f1) (if b then e2 else f2).
  Proof. destruct b; auto. Qed.
  Lemma a_pair {X Y Z} (p : X * Y) (e1 : X -> Y -> M K V Z) (e2 : X -> Y -> M K W Z) :
    (forall x y, agree (e1 x y) (e2 x y)) -> agree (let (x, y) := p in e1 x y) (let (x, y) := p in e2 x y).
  Proof. destruct p; auto. Qed.
End With.

Create HintDb agr.
#[global] Hint Resolve a_ret a_panic a_loop a_parent a_size a_balance a_key a_kid a_setParent a_setKid a_setSize a_setBalance : agr.
Ltac agr := cbv zeta; repeat first
  [ apply a_bind; [|intros ?] | apply a_fueled; intros ? | apply a_if | apply a_pair; intros ? ? | solve [eauto with agr] ].

Section Free.
  Context {K V W : Type} (cmp : K -> K -> Z) (root : nat).
  Notation agree := (agree (K := K) (V := V) (W := W)).
  Lemma a_getSize p : agree (getSize p) (getSize p).
  Proof. unfold getSize. destruct p; agr. Qed.
  Hint Resolve a_getSize : agr.
  Lemma a_sumSize p : agree (sumSize p) (sumSize p).
  Proof. unfold sumSize, getChildrenSumSize. agr. Qed.
  Lemma a_getChildrenSize p : agree (getChildrenSize p) (getChildrenSize p).
  Proof. unfold getChildrenSize. agr. Qed.
  Hint Resolve a_sumSize a_getChildrenSize : agr.
  Lemma a_updateBalance p : agree (updateBalance p) (updateBalance p).
  Proof. unfold updateBalance. agr. Qed.
  Lemma a_getRelationship p : agree (getRelationship p) (getRelationship p).
  Proof. unfold getRelationship. agr. Qed.
  Hint Resolve a_updateBalance a_getRelationship : agr.
  Lemma a_rotate d p : agree (rotate d p) (rotate d p).
  Proof. unfold rotate. agr. Qed.
  Hint Resolve a_rotate : agr.
  Lemma a_sizeRRotate p : agree (sizeRRotate p) (sizeRRotate p).
  Proof. unfold sizeRRotate, lrotate, rrotate. agr. Qed.
  Lemma a_sizeLRotate p : agree (sizeLRotate p) (sizeLRotate p).
  Proof. unfold sizeLRotate, lrotate, rrotate. agr. Qed.
  Hint Resolve a_sizeRRotate a_sizeLRotate : agr.
  Lemma a_getRoot : agree (getRoot root) (getRoot root).
  Proof. unfold getRoot. agr. Qed.
  Lemma a_fixPutSize n : forall p, agree (fixPutSize root n p) (fixPutSize root n p).
  Proof. induction n as [|n IH]; intros p; cbn [fixPutSize]; agr. Qed.
  Hint Resolve a_fixPutSize : agr.
  Lemma a_fixPutLoop n : forall h p, agree (fixPutLoop root n h p) (fixPutLoop root n h p).
  Proof. induction n as [|n IH]; intros h p; cbn [fixPutLoop]; agr. Qed.
  Hint Resolve a_fixPutLoop : agr.
  Lemma a_fixPut p : agree (TreelistHeapModel.fixPut root p) (TreelistHeapModel.fixPut root p).
  Proof. unfold TreelistHeapModel.fixPut. agr. Qed.
  Lemma a_fixRemoveSize n : forall p, agree (fixRemoveSize root n p) (fixRemoveSize root n p).
  Proof. induction n as [|n IH]; intros p; cbn [fixRemoveSize]; agr. Qed.
  Hint Resolve a_fixRemoveSize : agr.
  Lemma a_lastNode d n : forall p, agree (lastNode d n p) (lastNode d n p).
  Proof. induction n as [|n IH]; intros p; cbn [lastNode]; agr. Qed.
  Hint Resolve a_lastNode : agr.
  Lemma a_adopt d p q : agree (adopt d p q) (adopt d p q).
  Proof. unfold adopt. agr. Qed.
  Hint Resolve a_adopt : agr.
  Lemma a_fixRemoveRange p : agree (fixRemoveRange p) (fixRemoveRange p).
  Proof. unfold fixRemoveRange, lrotate, rrotate. agr. Qed.
  Hint Resolve a_fixRemoveRange : agr.
  Lemma a_growUp z q n : forall p, agree (growUp z q n p) (growUp z q n p).
  Proof. induction n as [|n IH]; intros p; cbn [growUp]; agr. Qed.
  Lemma a_sumUp n : forall p, agree (sumUp root n p) (sumUp root n p).
  Proof. induction n as [|n IH]; intros p; cbn [sumUp]; agr. Qed.
  Lemma a_shrinkUp z n : forall p, agree (shrinkUp root z n p) (shrinkUp root z n p).
  Proof. induction n as [|n IH]; intros p; cbn [shrinkUp]; agr. Qed.
  Hint Resolve a_growUp a_sumUp a_shrinkUp : agr.
  Lemma a_mergeGroups rt g c z d : agree (mergeGroups root rt g c z d) (mergeGroups root rt g c z d).
  Proof. unfold mergeGroups. agr. Qed.
  Hint Resolve a_mergeGroups : agr.
  Lemma a_closeCut rt l r : agree (IndexHeapModel.closeCut root rt l r) (IndexHeapModel.closeCut root rt l r).
  Proof. unfold IndexHeapModel.closeCut. agr. Qed.
  Lemma a_keep d b n : forall p, agree (keep cmp d b n p) (keep cmp d b n p).
  Proof. induction n as [|n IH]; intros p; cbn [keep]; agr. Qed.
  Lemma a_keepAt d b n : forall z p, agree (keepAt d b n z p) (keepAt d b n z p).
  Proof. induction n as [|n IH]; intros z p; cbn [keepAt]; agr. Qed.
  Lemma a_newRoot p : agree (newRoot root p) (newRoot root p).
  Proof. unfold newRoot. agr. Qed.
  Lemma a_getRangeRoot lo hi n : forall p, agree (IndexHeapModel.getRangeRoot cmp lo hi n p) (IndexHeapModel.getRangeRoot cmp lo hi n p).
  Proof. induction n as [|n IH]; intros p; cbn [IndexHeapModel.getRangeRoot]; agr. Qed.
  Lemma a_rangeRootAt lo hi n : forall z p, agree (rangeRootAt lo hi n z p) (rangeRootAt lo hi n z p).
  Proof. induction n as [|n IH]; intros z p; cbn [rangeRootAt]; agr. Qed.
End Free.

(** ** The values of TreelistModel.v *)
Section Tagged.
  Context {K V : Type}.
  (** the node at address S i is the node with the number i of TreelistModel.v *)
  Definition tag (m : mem K V) (a : nat) : nat * V := (pred a, Value m a).
  Definition tagged (m : mem K V) : mem K (nat * V) := withV (tag m) m.

  Lemma withV_self (m : mem K V) : withV (Value m) m = m.
  Proof. destruct m; reflexivity. Qed.
  Lemma agree_value {X} (e : M K V X) m x m' : agree e e -> e m = Ret x m' -> Value m' = Value m.
  Proof. intros H He. specialize (H m (Value m)). rewrite withV_self, He in H. injection H as H. rewrite H. reflexivity. Qed.
  Lemma agree_value_p {X} (e : M K V X) m m' : agree e e -> e m = Panic m' -> Value m' = Value m.
  Proof. intros H He. specialize (H m (Value m)). rewrite withV_self, He in H. injection H as H. rewrite H. reflexivity. Qed.

  Lemma run_tagged {X} (e : M K V X) (e' : M K (nat * V) X) m x g : agree e e' -> agree e e -> e' (tagged m) = Ret x g ->
    exists m', e m = Ret x m' /\ g = tagged m' /\ Value m' = Value m.
  Proof.
    intros H1 H2 He. unfold tagged in He. rewrite H1 in He. destruct (e m) as [y m'|m'|] eqn:Em; try discriminate. injection He as <- <-.
    pose proof (agree_value _ _ _ _ H2 Em) as Hv. exists m'. split; [reflexivity|]. split; [|exact Hv]. unfold tagged, tag. rewrite Hv. reflexivity.
  Qed.
  Lemma panic_tagged {X} (e : M K V X) (e' : M K (nat * V) X) m g : agree e e' -> agree e e -> e' (tagged m) = Panic g ->
    exists m', e m = Panic m' /\ g = tagged m' /\ Value m' = Value m.
  Proof.
    intros H1 H2 He. unfold tagged in He. rewrite H1 in He. destruct (e m) as [y m'|m'|] eqn:Em; try discriminate. injection He as <-.
    pose proof (agree_value_p _ _ _ H2 Em) as Hv. exists m'. split; [reflexivity|]. split; [|exact Hv]. unfold tagged, tag. rewrite Hv. reflexivity.
  Qed.

  (** the same for code on nodes with Direct pointers *)
  Lemma lift_tagged {X} (e : M K V X) (e' : M K (nat * V) X) (m : tmem K V) x g : agree e e' -> agree e e -> e' (tagged (base m)) = Ret x g ->
    exists b, lift e m = Done x (TMem b (Direct m)) /\ g = tagged b /\ Value b = Value (base m).
  Proof.
    intros H1 H2 He. destruct (run_tagged _ _ _ _ _ H1 H2 He) as (b & Hb & Hg & Hv). exists b. unfold lift. rewrite Hb. auto.
  Qed.
  Lemma lift_panic {X} (e : M K V X) (e' : M K (nat * V) X) (m : tmem K V) g : agree e e' -> agree e e -> e' (tagged (base m)) = Panic g ->
    exists b, lift e m = Fail (TMem b (Direct m)) /\ g = tagged b /\ Value b = Value (base m).
  Proof.
    intros H1 H2 He. destruct (panic_tagged _ _ _ _ H1 H2 He) as (b & Hb & Hg & Hv). exists b. unfold lift. rewrite Hb. auto.
  Qed.
  Lemma run_tbind {X Y} (e : TM K V X) (f : X -> TM K V Y) m x m' : e m = Done x m' -> tbind e f m = f x m'.
  Proof. intros H. unfold tbind. rewrite H. reflexivity. Qed.
  Lemma fail_tbind {X Y} (e : TM K V X) (f : X -> TM K V Y) m m' : e m = Fail m' -> tbind e f m = Fail m'.
  Proof. intros H. unfold tbind. rewrite H. reflexivity. Qed.

  (** ** The thread *)
  Definition addr : option nat -> ptr := option_map S.
  Definition dirs (dir : nat -> bool -> ptr) (lk : TreelistModel.links) : Prop :=
    (forall i b, dir (S i) b = addr (TreelistModel.d lk i b)) /\ (forall b, dir 0%nat b = addr (TreelistModel.e lk b)).
  Record trep (m : tmem K V) (s : TreelistModel.tl K V) : Prop := {
    tr_tree : exists x, ok (tagged (base m)) 0 [] x /\ view (tagged (base m)) x = TreelistModel.top s;
    tr_dirs : dirs (Direct m) (TreelistModel.lks s);
    tr_next : next (base m) = S (TreelistModel.fresh s) }.
End Tagged.

(** ** Writing Direct pointers *)
Section Dirs.
  Context {K V : Type}.
  Notation tmem := (tmem K V).
  Implicit Types (m : tmem) (lk : TreelistModel.links).

  Lemma tmem_eta m : TMem (base m) (Direct m) = m.
  Proof. destruct m; reflexivity. Qed.
  Lemma lift_rd {X} (f : mem K V -> nat -> X) a m : lift (rd f (Some a)) m = Done (f (base m) a) m.
  Proof. destruct m; reflexivity. Qed.
  Lemma lift_kid a d m : lift (rdKid (Some a) d) m = Done (Children (base m) a d) m.
  Proof. destruct m; reflexivity. Qed.
  Lemma lift_ok {X} (e : M K V X) m x b : e (base m) = Ret x b -> lift e m = Done x (TMem b (Direct m)).
  Proof. intros H. unfold lift. rewrite H. reflexivity. Qed.
  Lemma lift_read {X} (e : M K V X) m x : e (base m) = Ret x (base m) -> lift e m = Done x m.
  Proof. intros H. rewrite (lift_ok _ _ _ _ H). rewrite tmem_eta. reflexivity. Qed.

  Lemma dirs_node dir lk x (b : bool) y : dirs dir lk ->
    dirs (fun a e => if Nat.eqb a (S x) && Bool.eqb e b then addr y else dir a e) (TreelistModel.setd x b y lk).
  Proof.
    intros (H1 & H2). split; [|exact H2]. intros i b'. cbn [TreelistModel.setd TreelistModel.d Nat.eqb].
    destruct (Nat.eqb i x && Bool.eqb b' b); [reflexivity|apply H1].
  Qed.
  Lemma dirs_root dir lk (b : bool) y : dirs dir lk ->
    dirs (fun a e => if Nat.eqb a 0 && Bool.eqb e b then addr y else dir a e) (TreelistModel.sete b y lk).
  Proof.
    intros (H1 & H2). split; [exact H1|]. intros b'. cbn [TreelistModel.sete TreelistModel.e Nat.eqb andb].
    destruct (Bool.eqb b' b); [reflexivity|apply H2].
  Qed.
  Lemma wrDir_node m lk x b y : dirs (Direct m) lk ->
    exists dir, wrDir (addr (Some x)) b (addr y) m = Done tt (TMem (base m) dir) /\ dirs dir (TreelistModel.setd x b y lk).
  Proof. intros H. eexists. split; [reflexivity|]. apply dirs_node, H. Qed.
  Lemma wrDir_root m lk b y : dirs (Direct m) lk ->
    exists dir, wrDir (Some 0%nat) b (addr y) m = Done tt (TMem (base m) dir) /\ dirs dir (TreelistModel.sete b y lk).
  Proof. intros H. eexists. split; [reflexivity|]. apply dirs_root, H. Qed.
  Lemma rdDir_node m lk x b : dirs (Direct m) lk -> rdDir (addr (Some x)) b m = Done (addr (TreelistModel.d lk x b)) m.
  Proof. intros (H & _). cbn. rewrite H. reflexivity. Qed.
  Lemma rdDir_root m lk b : dirs (Direct m) lk -> rdDir (Some 0%nat) b m = Done (addr (TreelistModel.e lk b)) m.
  Proof. intros (_ & H). cbn. rewrite H. reflexivity. Qed.
  Lemma nil_addr p : isNil (addr p) = match p with None => true | _ => false end.
  Proof. destruct p; reflexivity. Qed.

  Lemma unlink_run m lk p q : dirs (Direct m) lk ->
    exists dir, unlink 0 (addr p) (addr q) m = Done tt (TMem (base m) dir) /\ dirs dir (TreelistModel.unlink p q lk).
  Proof.
    intros H. unfold unlink, TreelistModel.unlink. rewrite !nil_addr.
    assert (H1 : exists dir, (if negb match p with Some _ => false | None => true end then wrDir (addr p) true (addr q) else wrDir (Some 0%nat) false (addr q)) m = Done tt (TMem (base m) dir) /\
      dirs dir match p with Some y => TreelistModel.setd y true q lk | None => TreelistModel.sete false q lk end)
      by (destruct p; [apply wrDir_node, H|apply wrDir_root, H]).
    destruct H1 as (dir & R & H1). erewrite run_tbind by exact R.
    destruct q; [apply (wrDir_node (TMem (base m) dir)), H1|apply (wrDir_root (TMem (base m) dir) _ true p), H1].
  Qed.

  (** other values, the same one by one *)
  Definition alike (g g' : mem K (nat * V)) : Prop :=
    Parent g' = Parent g /\ Children g' = Children g /\ next g' = next g /\ forall a, Size g' a = Size g a /\ Key g' a = Key g a /\ Value g' a = Value g a.
  Lemma alike_ok g g' root c s : alike g g' -> ok g root c s -> ok g' root c s.
  Proof. intros (H1 & H2 & H3 & _). apply ok_links; assumption. Qed.
  Lemma alike_view g g' s : alike g g' -> view g' s = view g s.
  Proof. intros (_ & _ & _ & H). apply view_keep. intros a _. apply H. Qed.
  Lemma alike_cview g g' c : alike g g' -> cview g' c = cview g c.
  Proof. intros (_ & _ & _ & H). apply cview_keep. intros a _. apply H. Qed.
End Dirs.

(** the shape does not depend on the values *)
Section Shape.
  Context {K V W : Type}.
  Lemma hangs_withV (m : mem K V) (f : nat -> W) p s : hangs m p s -> hangs (withV f m) p s.
  Proof. destruct s; auto. Qed.
  Lemma body_withV (m : mem K V) (f : nat -> W) s : body m s -> body (withV f m) s.
  Proof.
    induction s as [|a l IHl r IHr]; [auto|]. cbn [body]. intros (H1 & H2 & H3 & H4 & H5 & H6).
    split; [exact H1|]. split; [exact H2|]. split; [apply hangs_withV, H3|]. split; [apply hangs_withV, H4|]. auto.
  Qed.
  Lemma cok_withV (m : mem K V) (f : nat -> W) root c : forall x, cok m root c x -> cok (withV f m) root c x.
  Proof.
    induction c as [|((a, d), y) c IH]; intros x; [auto|]. cbn [cok]. intros (H1 & H2 & H3 & H4 & H5 & H6).
    split; [exact H1|]. split; [exact H2|]. split; [apply hangs_withV, H3|]. split; [apply body_withV, H4|]. split; [exact H5|]. apply IH, H6.
  Qed.
  Lemma ok_withV (m : mem K V) (f : nat -> W) root c s : ok m root c s -> ok (withV f m) root c s.
  Proof.
    intros [H1 H2 H3 H4 H5]. constructor; [apply cok_withV, H1|apply hangs_withV, H2|apply body_withV, H3|exact H4|exact H5].
  Qed.
End Shape.
Lemma ok_base {K V} (m : mem K V) root c s : ok (tagged m) root c s -> ok m root c s.
Proof. intros H. apply (ok_withV _ (Value m)) in H. destruct m; exact H. Qed.
Lemma body_base {K V} (m : mem K V) s : body (tagged m) s -> body m s.
Proof. intros H. apply (body_withV _ (Value m)) in H. destruct m; exact H. Qed.
