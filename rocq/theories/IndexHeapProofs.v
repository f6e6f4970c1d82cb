(** tree/indextree in memory: the statements of IndexHeapModel.v do to nodes what the functions of IndexModel.v do to trees. *)
From Coq Require Import Permutation.
From Verif Require Import Base Bind Machine AvlTree AvlModel AvlSpec IndexSpec IndexModel.
From Verif Require Import IndexHeapModel.
From Verif Require IndexProofs.
Local Open Scope Z_scope.

(** ** Lists without repetitions *)
Lemma nodup_app {X} (l1 l2 : list X) : NoDup (l1 ++ l2) <-> NoDup l1 /\ NoDup l2 /\ (forall x, In x l1 -> ~ In x l2).
Proof.
  induction l1 as [|a l1 IH]; cbn [app].
  - split; [intros H; split; [constructor|]; split; [exact H|]; intros x []|intros (_ & H & _); exact H].
  - rewrite !NoDup_cons_iff, IH, in_app_iff. split.
    + intros (H1 & H2 & H3 & H4). split; [split; [tauto|exact H2]|]. split; [exact H3|]. intros x [->|Hx]; [tauto|auto].
    + intros ((H1 & H2) & H3 & H4). split; [intros [H|H]; [tauto|exact (H4 a (or_introl eq_refl) H)]|].
      split; [exact H2|]. split; [exact H3|]. intros x Hx. apply H4. right; exact Hx.
Qed.

Lemma upd_eq {X} (f : nat -> X) a x : upd f a x a = x.
Proof. unfold upd. rewrite Nat.eqb_refl. reflexivity. Qed.
Lemma upd_ne {X} (f : nat -> X) a x b : b <> a -> upd f a x b = f b.
Proof. intros H. unfold upd. destruct (Nat.eqb_spec b a); [contradiction|reflexivity]. Qed.
Lemma eqp_refl p : eqp p p = true.
Proof. destruct p; cbn; [apply Nat.eqb_refl|reflexivity]. Qed.
Lemma eqp_ne p q : p <> q -> eqp p q = false.
Proof. destruct p as [a|], q as [b|]; cbn; try reflexivity; try congruence. destruct (Nat.eqb_spec a b); congruence. Qed.
Lemma eqp_spec p q : reflect (p = q) (eqp p q).
Proof.
  destruct p as [a|], q as [b|]; cbn; try (constructor; congruence). destruct (Nat.eqb_spec a b); constructor; congruence.
Qed.
Lemma eqb_neg d : Bool.eqb (negb d) d = false.
Proof. destruct d; reflexivity. Qed.
Lemma neg_eqb d : Bool.eqb d (negb d) = false.
Proof. destruct d; reflexivity. Qed.

(** ** Shapes: which addresses are where *)
Inductive sh := L | B (a : nat) (l r : sh).
Definition pt (s : sh) : ptr := match s with L => None | B a _ _ => Some a end.
Fixpoint addrs (s : sh) : list nat := match s with L => [] | B a l r => a :: addrs l ++ addrs r end.
(** the node [a] with [x] as child [d] and [y] as the other one *)
Definition nd (a : nat) (d : bool) (x y : sh) : sh := if d then B a y x else B a x y.
(** the way up from a place in the tree: node, direction it was left in, the child on the other side *)
Definition frame : Type := nat * bool * sh.
Fixpoint plug (c : list frame) (s : sh) : sh :=
  match c with [] => s | (a, d, y) :: c => plug c (nd a d s y) end.
Fixpoint caddrs (c : list frame) : list nat :=
  match c with [] => [] | (a, _, y) :: c => a :: addrs y ++ caddrs c end.
Definition top (root : nat) (c : list frame) : nat := match c with [] => root | (a, _, _) :: _ => a end.
Definition cdir (c : list frame) : bool := match c with [] => false | (_, d, _) :: _ => d end.

Lemma pt_nd a d x y : pt (nd a d x y) = Some a.
Proof. destruct d; reflexivity. Qed.
Lemma nd_cases a l r d : B a l r = nd a d (if d then r else l) (if d then l else r).
Proof. destruct d; reflexivity. Qed.
Lemma nd_swap a d x y : nd a (negb d) x y = nd a d y x.
Proof. destruct d; reflexivity. Qed.
Lemma addrs_nd a d x y : Permutation (addrs (nd a d x y)) (a :: addrs x ++ addrs y).
Proof. destruct d; cbn [nd addrs]; [apply perm_skip, Permutation_app_comm|reflexivity]. Qed.
Lemma addrs_plug c : forall s, Permutation (addrs (plug c s)) (caddrs c ++ addrs s).
Proof.
  induction c as [|((a, d), y) c IH]; intros s; cbn [plug caddrs app]; [reflexivity|].
  rewrite IH, addrs_nd. rewrite Permutation_app_comm. cbn [app]. apply perm_skip.
  rewrite <- !app_assoc. rewrite (Permutation_app_comm (addrs s)). rewrite <- !app_assoc. reflexivity.
Qed.
Lemma plug_app c1 c2 s : plug (c1 ++ c2) s = plug c2 (plug c1 s).
Proof. revert s. induction c1 as [|((a, d), y) c1 IH]; intros s; cbn [app plug]; [reflexivity|apply IH]. Qed.

Section Mem.
  Context {K V : Type}.
  Notation mem := (mem K V).
  Notation tree := (tree K V).
  Implicit Types m : mem.

  Definition hangs m (p : nat) (s : sh) : Prop := match s with L => True | B a _ _ => Parent m a = Some p end.
  (** the links inside [s] *)
  Fixpoint body m (s : sh) : Prop :=
    match s with
    | L => True
    | B a l r => Children m a false = pt l /\ Children m a true = pt r /\ hangs m a l /\ hangs m a r /\ body m l /\ body m r
    end.
  (** the links around a place that holds [x] *)
  Fixpoint cok m (root : nat) (c : list frame) (x : ptr) : Prop :=
    match c with
    | [] => Children m root false = x /\ Children m root true = None
    | (a, d, y) :: c =>
        Children m a d = x /\ Children m a (negb d) = pt y /\ hangs m a y /\ body m y /\
        Parent m a = Some (top root c) /\ cok m root c (Some a)
    end.
  (** the tree, as IndexModel.v sees it *)
  Fixpoint view m (s : sh) : tree :=
    match s with L => E | B a l r => N (Size m a) (Key m a) (Value m a) (view m l) (view m r) end.
  Definition tframe : Type := Z * K * V * bool * tree.
  Definition tnd (s : Z) (k : K) (v : V) (d : bool) (x y : tree) : tree := if d then N s k v y x else N s k v x y.
  Definition tfill (f : tframe) (x : tree) : tree := let '(s, k, v, d, y) := f in tnd s k v d x y.
  Fixpoint tplug (c : list tframe) (t : tree) : tree := match c with [] => t | f :: c => tplug c (tfill f t) end.
  Definition fview m (f : frame) : tframe := let '(a, d, y) := f in (Size m a, Key m a, Value m a, d, view m y).
  Definition cview m (c : list frame) : list tframe := map (fview m) c.

  Lemma view_nd m a d x y : view m (nd a d x y) = tnd (Size m a) (Key m a) (Value m a) d (view m x) (view m y).
  Proof. destruct d; reflexivity. Qed.
  Lemma view_plug m c : forall s, view m (plug c s) = tplug (cview m c) (view m s).
  Proof. induction c as [|((a, d), y) c IH]; intros s; cbn [plug cview map tplug]; [reflexivity|]. rewrite IH, view_nd. reflexivity. Qed.

  (** a tree (the part [s] of it, with the way [c] up) in memory *)
  Record ok m (root : nat) (c : list frame) (s : sh) : Prop := {
    ok_c : cok m root c (pt s);
    ok_h : hangs m (top root c) s;
    ok_b : body m s;
    ok_n : NoDup (root :: caddrs c ++ addrs s);
    ok_l : forall a, In a (root :: caddrs c ++ addrs s) -> (a < next m)%nat }.

  Lemma body_nd m a d x y : body m (nd a d x y) <->
    Children m a d = pt x /\ Children m a (negb d) = pt y /\ hangs m a x /\ hangs m a y /\ body m x /\ body m y.
  Proof. destruct d; cbn [nd body negb]; tauto. Qed.
  Lemma hangs_nd m p a d x y : hangs m p (nd a d x y) <-> Parent m a = Some p.
  Proof. destruct d; cbn; tauto. Qed.

  Lemma perm_step a x y c : Permutation (caddrs c ++ a :: addrs x ++ addrs y) (a :: addrs y ++ caddrs c ++ addrs x).
  Proof.
    rewrite <- Permutation_middle. apply perm_skip. rewrite (Permutation_app_comm (addrs x)).
    rewrite !app_assoc. apply Permutation_app_tail. apply Permutation_app_comm.
  Qed.
  Lemma perm_down root a d x y c :
    Permutation (root :: caddrs c ++ addrs (nd a d x y)) (root :: caddrs ((a, d, y) :: c) ++ addrs x).
  Proof.
    apply perm_skip. cbn [caddrs app]. rewrite addrs_nd. rewrite perm_step. apply perm_skip. rewrite <- app_assoc. reflexivity.
  Qed.
  Lemma ok_down m root c a d x y : ok m root c (nd a d x y) <-> ok m root ((a, d, y) :: c) x.
  Proof.
    split; intros [Hc Hh Hb Hn Hl]; constructor.
    - rewrite pt_nd in Hc. apply body_nd in Hb. apply hangs_nd in Hh. cbn [cok]. tauto.
    - cbn [top]. apply body_nd in Hb. tauto.
    - apply body_nd in Hb. tauto.
    - eapply Permutation_NoDup; [apply perm_down|exact Hn].
    - intros b Hb'. apply Hl. eapply Permutation_in; [symmetry; apply perm_down|exact Hb'].
    - rewrite pt_nd. cbn [cok] in Hc. tauto.
    - apply hangs_nd. cbn [cok] in Hc. tauto.
    - apply body_nd. cbn [cok top] in Hc, Hh. tauto.
    - eapply Permutation_NoDup; [symmetry; apply perm_down|exact Hn].
    - intros b Hb'. apply Hl. eapply Permutation_in; [apply perm_down|exact Hb'].
  Qed.
  Lemma ok_plug m root c : forall s, ok m root c s <-> ok m root [] (plug c s).
  Proof. induction c as [|((a, d), y) c IH]; intros s; [reflexivity|]. cbn [plug]. rewrite <- IH, ok_down. reflexivity. Qed.
  Lemma ok_plug_app m root c1 c2 s : ok m root (c1 ++ c2) s <-> ok m root c2 (plug c1 s).
  Proof. rewrite ok_plug, plug_app, <- ok_plug. reflexivity. Qed.
  Lemma ok_view m root c s : ok m root c s -> view m (plug c s) = tplug (cview m c) (view m s).
  Proof. intros _. apply view_plug. Qed.

  (** ** What does not change *)
  (** links of the nodes in [l] *)
  Definition links m m' (l : list nat) : Prop :=
    forall a, In a l -> Parent m' a = Parent m a /\ forall d, Children m' a d = Children m a d.
  Definition data m m' (l : list nat) : Prop :=
    forall a, In a l -> Size m' a = Size m a /\ Key m' a = Key m a /\ Value m' a = Value m a.

  Lemma links_incl m m' l1 l2 : incl l1 l2 -> links m m' l2 -> links m m' l1.
  Proof. intros H H2 a Ha. apply H2, H, Ha. Qed.
  Lemma data_incl m m' l1 l2 : incl l1 l2 -> data m m' l2 -> data m m' l1.
  Proof. intros H H2 a Ha. apply H2, H, Ha. Qed.
  Lemma hangs_keep m m' p s : links m m' (addrs s) -> hangs m p s -> hangs m' p s.
  Proof. destruct s as [|a l r]; [trivial|]. intros H Hh. cbn [hangs] in *. rewrite (proj1 (H a (or_introl eq_refl))). exact Hh. Qed.
  Lemma body_keep m m' s : links m m' (addrs s) -> body m s -> body m' s.
  Proof.
    induction s as [|a l IHl r IHr]; [trivial|]. intros H (H1 & H2 & H3 & H4 & H5 & H6). cbn [body addrs] in *.
    assert (Il : incl (addrs l) (a :: addrs l ++ addrs r)) by (apply incl_tl, incl_appl, incl_refl).
    assert (Ir : incl (addrs r) (a :: addrs l ++ addrs r)) by (apply incl_tl, incl_appr, incl_refl).
    pose proof (links_incl _ _ _ _ Il H) as Hl. pose proof (links_incl _ _ _ _ Ir H) as Hr.
    destruct (H a (or_introl eq_refl)) as (_ & Hk). rewrite !Hk.
    split; [exact H1|]. split; [exact H2|]. split; [eapply hangs_keep; eauto|]. split; [eapply hangs_keep; eauto|]. auto.
  Qed.
  Lemma view_keep m m' s : data m m' (addrs s) -> view m' s = view m s.
  Proof.
    induction s as [|a l IHl r IHr]; [reflexivity|]. intros H. cbn [view addrs] in *.
    destruct (H a (or_introl eq_refl)) as (-> & -> & ->). rewrite IHl, IHr; [reflexivity| |];
      apply (data_incl _ _ _ _) with (2 := H); [apply incl_tl, incl_appr, incl_refl|apply incl_tl, incl_appl, incl_refl].
  Qed.
  Lemma cview_keep m m' c : data m m' (caddrs c) -> cview m' c = cview m c.
  Proof.
    induction c as [|((a, d), y) c IH]; [reflexivity|]. intros H. cbn [cview map fview caddrs] in *.
    destruct (H a (or_introl eq_refl)) as (-> & -> & ->). f_equal.
    - rewrite (view_keep m m'); [reflexivity|]. apply (data_incl _ _ _ _) with (2 := H). apply incl_tl, incl_appl, incl_refl.
    - apply IH. apply (data_incl _ _ _ _) with (2 := H). apply incl_tl, incl_appr, incl_refl.
  Qed.
  (** a change of the one pointer that leads to the place *)
  Definition links' m m' (root : nat) (c : list frame) : Prop :=
    (forall a, In a (caddrs c) -> Parent m' a = Parent m a) /\
    (forall a d, In a (root :: caddrs c) -> (a, d) <> (top root c, cdir c) -> Children m' a d = Children m a d).
  Lemma cok_keep m m' root c x : (forall a, In a (caddrs c) -> Parent m' a = Parent m a) ->
    (forall a d, In a (root :: caddrs c) -> Children m' a d = Children m a d) -> cok m root c x -> cok m' root c x.
  Proof.
    revert x. induction c as [|((a, d), y) c IH]; intros x Hp Hk H; cbn [cok caddrs] in *.
    - rewrite !Hk by (left; reflexivity). exact H.
    - destruct H as (H1 & H2 & H3 & H4 & H5 & H6).
      assert (Hy : links m m' (addrs y)).
      { intros b Hb. split; [apply Hp; right; apply in_or_app; auto|intros e; apply Hk; right; right; apply in_or_app; auto]. }
      rewrite !Hk by (right; left; reflexivity). rewrite Hp by (left; reflexivity).
      split; [exact H1|]. split; [exact H2|]. split; [eapply hangs_keep; eauto|]. split; [eapply body_keep; eauto|]. split; [exact H5|].
      apply IH; [|intros b e [->|Hb]; apply Hk; [left; reflexivity|right; right; apply in_or_app; auto]|exact H6].
      intros b Hb. apply Hp. right. apply in_or_app; auto.
  Qed.
  Lemma cok_change m m' root c x x' : NoDup (root :: caddrs c) -> links' m m' root c -> Children m' (top root c) (cdir c) = x' ->
    cok m root c x -> cok m' root c x'.
  Proof.
    intros Hn (Hp & Hk) Hx H. destruct c as [|((a, d), y) c]; cbn [cok caddrs top cdir] in *.
    - destruct H as (_ & H). split; [exact Hx|]. rewrite Hk; [exact H|left; reflexivity|congruence].
    - destruct H as (H1 & H2 & H3 & H4 & H5 & H6). inversion Hn as [|? ? Hr Hn']; subst. inversion Hn' as [|? ? Ha Hn'']; subst.
      rewrite in_app_iff in Ha. cbn [In] in Hr. rewrite in_app_iff in Hr.
      assert (Hy : links m m' (addrs y)).
      { intros b Hb. split; [apply Hp; right; apply in_or_app; auto|]. intros e. apply Hk; [right; right; apply in_or_app; auto|]. intros X. injection X as -> ->. tauto. }
      split; [reflexivity|].
      rewrite Hk; [|right; left; reflexivity|destruct d; cbn; congruence]. rewrite Hp by (left; reflexivity).
      split; [exact H2|]. split; [eapply hangs_keep; eauto|]. split; [eapply body_keep; eauto|]. split; [exact H5|].
      eapply cok_keep; [| |exact H6].
      + intros b Hb. apply Hp. right. apply in_or_app; auto.
      + intros b e [->|Hb]; apply Hk; [left; reflexivity| |right; right; apply in_or_app; auto|]; intros X; injection X as -> ->; tauto.
  Qed.
  Lemma cok_dir m root c x : cok m root c x -> Children m (top root c) (cdir c) = x.
  Proof. destruct c as [|((a, d), y) c]; cbn; tauto. Qed.
  Lemma cok_other m root c a l r : ok m root c (B a l r) -> Children m (top root c) (negb (cdir c)) <> Some a.
  Proof.
    intros [Hc _ _ Hn _]. destruct c as [|((b, d), y) c]; cbn [cok top cdir negb caddrs app] in *.
    - rewrite (proj2 Hc). discriminate.
    - destruct Hc as (_ & -> & _). destruct y as [|e yl yr]; [discriminate|]. cbn [pt]. intros X. injection X as ->.
      inversion Hn as [|? ? _ Hn']. inversion Hn' as [|? ? _ Hn'']. cbn [addrs app] in Hn''. inversion Hn'' as [|? ? Hi _]. apply Hi.
      rewrite <- !app_assoc, !in_app_iff. right. right. right. left. reflexivity.
  Qed.
  Lemma top_in root c : In (top root c) (root :: caddrs c).
  Proof. destruct c as [|((a, d), y) c]; [left; reflexivity|right; left; reflexivity]. Qed.

  Lemma body_keep' m m' s : NoDup (addrs s) -> (forall x d, In x (addrs s) -> Children m' x d = Children m x d) ->
    (forall x, In x (addrs s) -> pt s <> Some x -> Parent m' x = Parent m x) -> body m s -> body m' s.
  Proof.
    destruct s as [|a l r]; [trivial|]. cbn [addrs body pt]. intros Hn Hk Hp (H1 & H2 & H3 & H4 & H5 & H6).
    rewrite !Hk by (left; reflexivity). apply NoDup_cons_iff in Hn as (Ha & Hn). rewrite in_app_iff in Ha.
    assert (Hl : links m m' (addrs l)).
    { intros x Hx. split; [apply Hp; [right; apply in_or_app; auto|intros X; injection X as ->; tauto]|intros d; apply Hk; right; apply in_or_app; auto]. }
    assert (Hr : links m m' (addrs r)).
    { intros x Hx. split; [apply Hp; [right; apply in_or_app; auto|intros X; injection X as ->; tauto]|intros d; apply Hk; right; apply in_or_app; auto]. }
    split; [exact H1|]. split; [exact H2|]. split; [eapply hangs_keep; eauto|]. split; [eapply hangs_keep; eauto|].
    split; eapply body_keep; eauto.
  Qed.
  Lemma pt_in s a : pt s = Some a -> In a (addrs s).
  Proof. destruct s as [|b l r]; [discriminate|]. intros X. injection X as ->. left; reflexivity. Qed.

  (** ** Running code *)
  Definition gs m (s : sh) : Z := IndexModel.getSize (view m s).
  Lemma getSize_ok m s : getSize (pt s) m = Ret (gs m s) m.
  Proof. destruct s; reflexivity. Qed.
  Lemma kids m a d x y : Children m a d = pt x -> Children m a (negb d) = pt y ->
    Children m a false = pt (if d then y else x) /\ Children m a true = pt (if d then x else y).
  Proof. destruct d; cbn; auto. Qed.
  Lemma getChildrenSize_ok m a d x y : Children m a d = pt x -> Children m a (negb d) = pt y ->
    getChildrenSize (Some a) m = Ret (gs m (if d then y else x), gs m (if d then x else y)) m.
  Proof.
    intros Hx Hy. destruct (kids _ _ _ _ _ Hx Hy) as (H0 & H1). unfold getChildrenSize, bind, rdKid, rd. rewrite H0.
    rewrite getSize_ok. rewrite H1, getSize_ok. reflexivity.
  Qed.
  Lemma sumSize_ok m a d x y : Children m a d = pt x -> Children m a (negb d) = pt y ->
    sumSize (Some a) m = Ret tt (setSize (gs m x + gs m y + 1) a m).
  Proof.
    intros Hx Hy. destruct (kids _ _ _ _ _ Hx Hy) as (H0 & H1). unfold sumSize, getChildrenSumSize, bind, rdKid, rd. rewrite H0.
    rewrite getSize_ok. rewrite H1, getSize_ok. unfold ret, wr. destruct d; [rewrite (Z.add_comm (gs m y))|]; reflexivity.
  Qed.
  Lemma updateBalance_ok m a d x y : Children m a d = pt x -> Children m a (negb d) = pt y ->
    updateBalance (Some a) m = Ret tt (setBalance (gs m (if d then y else x) - gs m (if d then x else y)) a m).
  Proof. intros Hx Hy. unfold updateBalance, bind. rewrite (getChildrenSize_ok _ _ _ _ _ Hx Hy). reflexivity. Qed.
  (** child.Parent = p if child is not nil *)
  Definition hook (p : nat) (s : sh) m : mem := match s with L => m | B a _ _ => setParent (Some p) a m end.

  Lemma Children_hook p s m : Children (hook p s m) = Children m.
  Proof. destruct s; reflexivity. Qed.
  Lemma Size_hook p s m : Size (hook p s m) = Size m.
  Proof. destruct s; reflexivity. Qed.
  Lemma Key_hook p s m : Key (hook p s m) = Key m.
  Proof. destruct s; reflexivity. Qed.
  Lemma Value_hook p s m : Value (hook p s m) = Value m.
  Proof. destruct s; reflexivity. Qed.
  Lemma next_hook p s m : next (hook p s m) = next m.
  Proof. destruct s; reflexivity. Qed.
  Lemma Parent_hook p s m x : pt s <> Some x -> Parent (hook p s m) x = Parent m x.
  Proof. destruct s as [|a l r]; [reflexivity|]. intros H. cbn. apply upd_ne. intros ->. apply H. reflexivity. Qed.
  Lemma hangs_hook p s m : hangs (hook p s m) p s.
  Proof. destruct s as [|a l r]; [exact I|]. cbn. apply upd_eq. Qed.
  Lemma hangs_hook' p q s m s' : (forall x, pt s = Some x -> pt s' <> Some x) -> hangs m q s' -> hangs (hook p s m) q s'.
  Proof. destruct s' as [|a l r]; [trivial|]. intros H Hh. cbn [hangs]. rewrite Parent_hook; [exact Hh|]. intros X. apply (H _ X). reflexivity. Qed.
End Mem.

Ltac mm1 := cbn [Parent Children Size Key Value next setParent setKid setSize setBalance setKey setValue].
Ltac mm := mm1;
  repeat (first [rewrite Children_hook | rewrite Size_hook | rewrite Key_hook | rewrite Value_hook | rewrite next_hook
               | rewrite upd_eq | rewrite upd_ne by congruence]; mm1);
  rewrite ?Bool.eqb_reflx, ?eqb_neg, ?neg_eqb.

Section Rotate.
  Context {K V : Type}.
  Notation mem := (mem K V).
  Implicit Types m : mem.

  Lemma run_bind {X Y} (e : M K V X) (f : X -> M K V Y) m x m' : e m = Ret x m' -> bind e f m = f x m'.
  Proof. intros H. unfold bind. rewrite H. reflexivity. Qed.

  Lemma perm_rotate a b d S0 R Y : Permutation (addrs (nd a d (nd b (negb d) S0 R) Y)) (addrs (nd b d R (nd a d S0 Y))).
  Proof.
    etransitivity; [apply addrs_nd|]. etransitivity; [apply perm_skip, Permutation_app_tail, addrs_nd|]. symmetry.
    etransitivity; [apply addrs_nd|]. etransitivity; [apply perm_skip, Permutation_app_head, addrs_nd|]. cbn [app].
    rewrite <- Permutation_middle. rewrite (perm_swap b a). apply perm_skip, perm_skip.
    rewrite !app_assoc. apply Permutation_app_tail, Permutation_app_comm.
  Qed.

  Lemma rotate_ok m root c a b d S0 R Y : ok m root c (nd a d (nd b (negb d) S0 R) Y) ->
    exists m', rotate d (Some a) m = Ret (Some b) m' /\ ok m' root c (nd b d R (nd a d S0 Y)) /\ next m' = next m /\
      data m m' (caddrs c ++ addrs S0 ++ addrs R ++ addrs Y) /\
      Key m' = Key m /\ Value m' = Value m /\
      Size m' a = gs m S0 + gs m Y + 1 /\ Size m' b = gs m R + Size m' a + 1.
  Proof.
    intros [Hc Hh Hb Hn Hl]. rewrite pt_nd in Hc. apply hangs_nd in Hh. apply body_nd in Hb.
    destruct Hb as (Kb & Ky & Pb & Py & Hb & By). apply hangs_nd in Pb. rewrite pt_nd in Kb. apply body_nd in Hb. rewrite Bool.negb_involutive in Hb.
    destruct Hb as (Km & Kr & Pm & Pr & Bm & Br).
    assert (Hn2 : NoDup ((root :: caddrs c) ++ a :: b :: addrs S0 ++ addrs R ++ addrs Y)).
    { eapply Permutation_NoDup; [|exact Hn]. apply (Permutation_app_head (root :: caddrs c)). rewrite addrs_nd. apply perm_skip.
      rewrite addrs_nd. cbn [app]. apply perm_skip. rewrite app_assoc. reflexivity. }
    apply nodup_app in Hn2 as (Nc & Ns & Nd). apply NoDup_cons_iff in Ns as (Na & Ns). apply NoDup_cons_iff in Ns as (Nb & Ns).
    set (p := top root c) in *.
    assert (Pc : In p (root :: caddrs c)) by apply top_in.
    assert (pa : p <> a) by (intros X; apply (Nd p Pc); rewrite X; left; reflexivity).
    assert (pb : p <> b) by (intros X; apply (Nd p Pc); rewrite X; right; left; reflexivity).
    assert (ab : a <> b) by (intros ->; apply Na; left; reflexivity).
    assert (ps : forall x, In x (addrs S0 ++ addrs R ++ addrs Y) -> p <> x /\ a <> x /\ b <> x /\ ~ In x (root :: caddrs c)).
    { intros x Hx. split; [intros <-; apply (Nd p Pc); right; right; exact Hx|]. split; [intros <-; apply Na; right; exact Hx|].
      split; [intros <-; exact (Nb Hx)|]. intros X. apply (Nd x X). right; right; exact Hx. }
    assert (Pdir : Children m p (cdir c) = Some a) by (apply (cok_dir _ _ _ _ Hc)).
    assert (Poth : Children m p (negb (cdir c)) <> Some a).
    { destruct (nd a d (nd b (negb d) S0 R) Y) as [|a' l' r'] eqn:En; [destruct d; discriminate|].
      replace a' with a in * by (destruct d; injection En; auto). apply (cok_other m root c a l' r'). constructor; auto.
      - cbn [body]. pose proof (body_nd m a d (nd b (negb d) S0 R) Y) as X. rewrite En in X. apply X. rewrite pt_nd. repeat split; auto.
        + apply hangs_nd; auto.
        + apply body_nd. rewrite Bool.negb_involutive. repeat split; auto. }
    assert (ptM : forall x, pt S0 = Some x -> p <> x /\ a <> x /\ b <> x) by (intros x X; destruct (ps x) as (? & ? & ? & ?); [apply in_or_app; left; apply pt_in, X|auto]).
    assert (E1 : (if eqp (Children m p d) (Some a) then wr (K := K) (V := V) (setKid d (Some b)) (Some p) else wr (setKid (negb d) (Some b)) (Some p))
                 = wr (setKid (cdir c) (Some b)) (Some p)).
    { destruct (Bool.bool_dec d (cdir c)) as [->|Hd].
      - rewrite Pdir, eqp_refl. reflexivity.
      - assert (Ed : d = negb (cdir c)) by (destruct d, (cdir c); cbn; congruence).
        rewrite Ed at 1. rewrite (eqp_ne _ _ Poth). rewrite Ed, Bool.negb_involutive. reflexivity. }
    set (m1 := setKid (cdir c) (Some b) p m).
    set (m2 := setParent (Some p) b m1).
    set (m3 := hook a S0 (setKid d (pt S0) a m2)).
    set (m4 := setKid (negb d) (Some a) b m3).
    set (m5 := setParent (Some b) a m4).
    set (m6 := setSize (gs m S0 + gs m Y + 1) a m5).
    set (m7 := setSize (gs m R + Size m6 a + 1) b m6).
    assert (D5 : Size m5 = Size m /\ Key m5 = Key m /\ Value m5 = Value m /\ next m5 = next m).
    { unfold m5, m4, m3, m2, m1. repeat split; mm; reflexivity. }
    destruct D5 as (D5s & D5k & D5v & D5n).
    assert (V5 : forall s, gs m5 s = gs m s) by (intros s; unfold gs; rewrite (view_keep m m5); [reflexivity|intros x _; rewrite D5s, D5k, D5v; auto]).
    assert (Ka5 : Children m5 a d = pt S0 /\ Children m5 a (negb d) = pt Y).
    { unfold m5, m4, m3, m2, m1. split; mm; [reflexivity|]. exact Ky. }
    assert (Kb5 : Children m5 b d = pt R /\ Children m5 b (negb d) = Some a).
    { unfold m5, m4, m3, m2, m1. split; mm; [exact Kr|reflexivity]. }
    assert (Sa6 : Size m6 a = gs m S0 + gs m Y + 1) by (unfold m6; mm; reflexivity).
    assert (V6 : gs m6 R = gs m R /\ gs m6 (nd a d S0 Y) = Size m6 a).
    { split; [|unfold gs; rewrite view_nd; destruct d; reflexivity].
      rewrite <- V5. unfold gs. rewrite (view_keep m5 m6); [reflexivity|]. intros x Hx. unfold m6. mm. rewrite upd_ne; [auto|].
      intros ->. destruct (ps a) as (_ & X & _); [apply in_or_app; right; apply in_or_app; auto|congruence]. }
    assert (Run : exists m', rotate d (Some a) m = Ret (Some b) m' /\ Parent m' = Parent m5 /\ Children m' = Children m5 /\ Size m' = Size m7 /\
              Key m' = Key m /\ Value m' = Value m /\ next m' = next m).
    { eexists. split.
      - unfold rotate. unfold rdKid, rd. unfold bind at 1. rewrite Kb. unfold bind at 1. rewrite Km. unfold bind at 1. rewrite Hh.
        fold p. unfold bind at 1. rewrite E1. erewrite run_bind by reflexivity. fold m1.
        unfold bind at 1. change (Parent m1 a) with (Parent m a). rewrite Hh. erewrite run_bind by reflexivity. fold p m2.
        erewrite (run_bind _ _ _ tt m3); [|unfold m3; destruct S0; reflexivity].
        erewrite run_bind by reflexivity. fold m4. erewrite run_bind by reflexivity. fold m5.
        erewrite run_bind by (apply (sumSize_ok _ _ d S0 Y); tauto). rewrite !V5. fold m6.
        erewrite run_bind by (apply (sumSize_ok _ _ d R (nd a d S0 Y)); [unfold m6; mm; tauto|rewrite pt_nd; unfold m6; mm; tauto]).
        rewrite (proj1 V6), (proj2 V6). fold m7.
        erewrite run_bind by (apply (updateBalance_ok _ _ d S0 Y); unfold m7, m6; mm; tauto).
        erewrite run_bind by (apply (updateBalance_ok _ _ d R (nd a d S0 Y)); [|rewrite pt_nd]; unfold m7, m6; mm; tauto).
        reflexivity.
      - unfold m7, m6. mm. rewrite D5k, D5v, D5n. repeat split; reflexivity. }
    destruct Run as (m' & Hrun & P' & C' & S' & K' & V' & N').
    exists m'. split; [exact Hrun|].
    assert (Sm' : forall x, x <> a -> x <> b -> Size m' x = Size m x) by (intros x Xa Xb; rewrite S'; unfold m7, m6; mm; rewrite D5s; reflexivity).
    assert (Pm' : forall x, x <> a -> x <> b -> pt S0 <> Some x -> Parent m' x = Parent m x).
    { intros x Xa Xb Xm. rewrite P'. unfold m5, m4, m3, m2, m1. mm. rewrite Parent_hook by exact Xm. mm. reflexivity. }
    assert (Cm' : forall x e, x <> a -> x <> b -> (x, e) <> (p, cdir c) -> Children m' x e = Children m x e).
    { intros x e Xa Xb Xp. rewrite C'. unfold m5, m4, m3, m2, m1. mm. destruct (Nat.eq_dec x p) as [->|Xp'].
      - rewrite upd_eq. destruct (Bool.eqb_spec e (cdir c)); [congruence|reflexivity].
      - rewrite upd_ne by exact Xp'. reflexivity. }
    assert (Bk : forall s, incl (addrs s) (addrs S0 ++ addrs R ++ addrs Y) -> (forall x, In x (addrs s) -> pt S0 = Some x -> pt s = Some x) -> NoDup (addrs s) -> body m s -> body m' s).
    { intros s Hi Ht Hns Hbs. apply (body_keep' m); auto.
      - intros x e Hx. destruct (ps x (Hi x Hx)) as (X1 & X2 & X3 & X4). apply Cm'; congruence.
      - intros x Hx Hnt. destruct (ps x (Hi x Hx)) as (X1 & X2 & X3 & X4). apply Pm'; try congruence. intros X. apply Hnt, Ht; auto. }
    apply nodup_app in Ns as (NM & Ns & ND1). apply nodup_app in Ns as (NR & NY & ND2).
    split; [|split; [congruence|]].
    - constructor.
      + rewrite pt_nd. eapply cok_change; [exact Nc| | |exact Hc].
        * split.
          -- intros x Hx. apply Pm'.
             ++ intros ->. apply (Nd a); [right; exact Hx|left; reflexivity].
             ++ intros ->. apply (Nd b); [right; exact Hx|right; left; reflexivity].
             ++ intros X. apply pt_in in X. destruct (ps x) as (_ & _ & _ & X4); [apply in_or_app; auto|]. apply X4. right; exact Hx.
          -- intros x e Hx Hne. apply Cm'; [| |exact Hne].
             ++ intros ->. apply (Nd a Hx). left; reflexivity.
             ++ intros ->. apply (Nd b Hx). right; left; reflexivity.
        * fold p. rewrite C'. unfold m5, m4, m3, m2, m1. mm. reflexivity.
      + apply hangs_nd. fold p. rewrite P'. unfold m5, m4, m3, m2, m1. mm. rewrite Parent_hook; [mm; reflexivity|].
        intros X. destruct (ptM _ X) as (_ & _ & X3). congruence.
      + apply body_nd. rewrite pt_nd, C'. split; [tauto|]. split; [tauto|].
        assert (Hpm : hangs m' a S0).
        { destruct S0 as [|x sl sr]; [exact I|]. cbn [hangs]. destruct (ptM x eq_refl) as (X1 & X2 & X3). rewrite P'. unfold m5, m4, m3, m2, m1. cbn [hook]. mm. reflexivity. }
        assert (Hpk : forall q s, incl (addrs s) (addrs R ++ addrs Y) -> hangs m q s -> hangs m' q s).
        { intros q s Hi Hs. destruct s as [|x sl sr]; [exact I|]. cbn [hangs] in *. assert (Ix : In x (addrs R ++ addrs Y)) by (apply Hi; left; reflexivity).
          destruct (ps x) as (X1 & X2 & X3 & X4); [apply in_or_app; auto|]. rewrite Pm'; auto. intros X. apply pt_in in X. apply (ND1 x X Ix). }
        split; [apply Hpk; [apply incl_appl, incl_refl|exact Pr]|]. split; [apply hangs_nd; rewrite P'; unfold m5; mm; reflexivity|].
        split; [apply Bk; [apply incl_appr, incl_appl, incl_refl| |exact NR|exact Br]|].
        { intros x Hx X. apply pt_in in X. exfalso. apply (ND1 x X). apply in_or_app; auto. }
        apply body_nd. rewrite C'. split; [tauto|]. split; [tauto|]. split; [exact Hpm|].
        split; [apply Hpk; [apply incl_appr, incl_refl|exact Py]|].
        split; [apply Bk; [apply incl_appl, incl_refl|auto|exact NM|exact Bm]|apply Bk; [apply incl_appr, incl_appr, incl_refl| |exact NY|exact By]].
        intros x Hx X. apply pt_in in X. exfalso. apply (ND1 x X). apply in_or_app; auto.
      + eapply Permutation_NoDup; [|exact Hn]. apply (Permutation_app_head (root :: caddrs c)), perm_rotate.
      + intros x Hx. rewrite N'. apply Hl. eapply Permutation_in; [|exact Hx]. symmetry. apply (Permutation_app_head (root :: caddrs c)), perm_rotate.
    - split; [|split; [exact K'|split; [exact V'|]]].
      + intros x Hx. rewrite K', V'. split; [|auto]. apply in_app_or in Hx. apply Sm'.
        * destruct Hx as [Hx|Hx]; [intros ->; apply (Nd a); [right; exact Hx|left; reflexivity]|destruct (ps x Hx) as (_ & X & _); congruence].
        * destruct Hx as [Hx|Hx]; [intros ->; apply (Nd b); [right; exact Hx|right; left; reflexivity]|destruct (ps x Hx) as (_ & _ & X & _); congruence].
      + rewrite S'. unfold m7 at 1 2 3. mm. split; [exact Sa6|reflexivity].
  Qed.

  (** [t] replaced at a place, the rest unchanged *)
  Definition same m m' c : Prop := next m' = next m /\ cview m' c = cview m c.
  Definition trot (d : bool) : tree K V -> option (tree K V) := if d then IndexModel.lrotate else IndexModel.rrotate.

  Lemma trot_nd d s2 k2 v2 X Y : forall t', trot d (tnd s2 k2 v2 d X Y) = Some t' ->
    exists s1 k1 v1 S0 R, X = tnd s1 k1 v1 d R S0 /\
      t' = tnd (IndexModel.getSize R + (IndexModel.getSize S0 + IndexModel.getSize Y + 1) + 1) k1 v1 d R
             (tnd (IndexModel.getSize S0 + IndexModel.getSize Y + 1) k2 v2 d S0 Y).
  Proof.
    intros t' H. destruct d; cbn [trot tnd] in *; destruct X as [|s1 k1 v1 xl xr]; try discriminate; injection H as <-.
    - exists s1, k1, v1, xl, xr. split; [reflexivity|]. unfold sum, tnd. cbn [IndexModel.getSize]. f_equal; [lia|f_equal; lia].
    - exists s1, k1, v1, xr, xl. split; [reflexivity|]. unfold sum, tnd. cbn [IndexModel.getSize]. f_equal.
  Qed.

  Lemma view_tnd m s z k v d x y : view m s = tnd z k v d x y ->
    exists a sx sy, s = nd a d sx sy /\ Size m a = z /\ Key m a = k /\ Value m a = v /\ view m sx = x /\ view m sy = y.
  Proof.
    destruct s as [|a l r]; [destruct d; discriminate|]. intros H. destruct d; cbn [view tnd] in H; injection H as <- <- <- <- <-.
    - exists a, r, l. repeat split.
    - exists a, l, r. repeat split.
  Qed.
  Lemma view_E m s : view m s = E -> s = L.
  Proof. destruct s; [reflexivity|discriminate]. Qed.
  Lemma tnd_cases d z k v l r : N z k v l r = tnd (K := K) (V := V) z k v d (if d then r else l) (if d then l else r).
  Proof. destruct d; reflexivity. Qed.

  Lemma trot_view m d s t' : trot d (view m s) = Some t' -> exists a b S0 R Y, s = nd a d (nd b (negb d) S0 R) Y.
  Proof.
    intros H. destruct s as [|a l r]; [destruct d; discriminate|]. cbn [view] in H. rewrite (tnd_cases d) in H.
    destruct (trot_nd _ _ _ _ _ _ _ H) as (s1 & k1 & v1 & S0 & R & HX & _).
    rewrite (nd_cases a l r d).
    assert (HX' : view m (if d then r else l) = tnd s1 k1 v1 d R S0) by (rewrite <- HX; destruct d; reflexivity).
    destruct (view_tnd _ _ _ _ _ _ _ _ HX') as (b & sx & sy & -> & _). exists a, b, sy, sx, (if d then l else r).
    rewrite (nd_swap b d). reflexivity.
  Qed.

  Lemma rotate_step m root c d s t' : ok m root c s -> trot d (view m s) = Some t' ->
    exists m' s', rotate d (pt s) m = Ret (pt s') m' /\ ok m' root c s' /\ view m' s' = t' /\ same m m' c.
  Proof.
    intros Hok Ht. destruct (trot_view _ _ _ _ Ht) as (a & b & S0 & R & Y & ->).
    destruct (rotate_ok _ _ _ _ _ _ _ _ _ Hok) as (m' & Hr & Hok' & Hn & Hd & Hk & Hv & Ha & Hb).
    exists m', (nd b d R (nd a d S0 Y)). rewrite !pt_nd. split; [exact Hr|]. split; [exact Hok'|].
    assert (D1 : view m' S0 = view m S0) by (apply view_keep; eapply data_incl; [|exact Hd]; apply incl_appr, incl_appl, incl_refl).
    assert (D2 : view m' R = view m R) by (apply view_keep; eapply data_incl; [|exact Hd]; apply incl_appr, incl_appr, incl_appl, incl_refl).
    assert (D3 : view m' Y = view m Y) by (apply view_keep; eapply data_incl; [|exact Hd]; apply incl_appr, incl_appr, incl_appr, incl_refl).
    split; [|split; [exact Hn|apply cview_keep; eapply data_incl; [|exact Hd]; apply incl_appl, incl_refl]].
    rewrite !view_nd in *. destruct (trot_nd _ _ _ _ _ _ _ Ht) as (s1 & k1 & v1 & S0' & R' & HX & ->).
    rewrite Hb, Ha, D1, D2, D3, Hk, Hv. unfold gs.
    assert (X : Key m b = k1 /\ Value m b = v1 /\ view m S0 = S0' /\ view m R = R').
    { destruct d; cbn [tnd negb] in HX; injection HX as ? ? ? ? ?; auto. }
    destruct X as (-> & -> & -> & ->). reflexivity.
  Qed.

  (** ** Writing fields of a node *)
  Lemma ok_links m m' root c s : Parent m' = Parent m -> Children m' = Children m -> next m' = next m -> ok m root c s -> ok m' root c s.
  Proof.
    intros Hp Hk Hn [H1 H2 H3 H4 H5].
    assert (X : forall l, links m m' l) by (intros l a _; rewrite Hp, Hk; auto). constructor.
    - eapply cok_keep; [| |exact H1]; intros; rewrite ?Hp, ?Hk; reflexivity.
    - eapply hangs_keep; [apply X|exact H2].
    - eapply body_keep; [apply X|exact H3].
    - exact H4.
    - rewrite Hn. exact H5.
  Qed.
  (** the sizes, keys and values of the other nodes are the same *)
  Definition others m m' (a : nat) : Prop := forall b, b <> a -> Size m' b = Size m b /\ Key m' b = Key m b /\ Value m' b = Value m b.
  Lemma view_others m m' a s : others m m' a -> ~ In a (addrs s) -> view m' s = view m s.
  Proof. intros H Ha. apply view_keep. intros b Hb. apply H. intros ->. contradiction. Qed.
  Lemma cview_others m m' a c : others m m' a -> ~ In a (caddrs c) -> cview m' c = cview m c.
  Proof. intros H Ha. apply cview_keep. intros b Hb. apply H. intros ->. contradiction. Qed.

  Lemma ok_notin m root c a d x y : ok m root c (nd a d x y) -> ~ In a (addrs x) /\ ~ In a (addrs y) /\ ~ In a (caddrs c) /\ a <> root.
  Proof.
    intros [_ _ _ Hn _]. apply NoDup_cons_iff in Hn as (Hr & Hn). 
    assert (Hn' : NoDup (caddrs c ++ a :: addrs x ++ addrs y)).
    { eapply Permutation_NoDup; [|exact Hn]. apply Permutation_app_head, addrs_nd. }
    apply nodup_app in Hn' as (_ & Hn' & Hd). apply NoDup_cons_iff in Hn' as (Ha & _). rewrite in_app_iff in Ha.
    split; [tauto|]. split; [tauto|]. split; [intros X; apply (Hd a X); left; reflexivity|].
    intros ->. apply Hr. apply in_or_app. right. eapply Permutation_in; [symmetry; apply addrs_nd|left; reflexivity].
  Qed.
  Lemma ok_notin_c m root a d y c s : ok m root ((a, d, y) :: c) s -> ~ In a (addrs s) /\ ~ In a (addrs y) /\ ~ In a (caddrs c) /\ a <> root.
  Proof. intros H. apply ok_down in H. apply ok_notin in H. exact H. Qed.
  Lemma ok_top m root c s : ok m root c s -> eqp (Some (top root c)) (Some root) = match c with [] => true | _ => false end.
  Proof.
    intros H. destruct c as [|((a, d), y) c]; [apply eqp_refl|]. cbn [top]. apply eqp_ne. intros X. injection X as ->.
    apply ok_notin_c in H. tauto.
  Qed.
  Lemma ok_kid m root a d y c s : ok m root ((a, d, y) :: c) s -> Children m a d = pt s /\ Children m a (negb d) = pt y.
  Proof. intros H. apply ok_c in H. cbn [cok] in H. tauto. Qed.
  Lemma ok_parent m root a d y c s : ok m root ((a, d, y) :: c) s -> Parent m a = Some (top root c).
  Proof. intros H. apply ok_c in H. cbn [cok] in H. tauto. Qed.

  (** enough steps *)
  Fixpoint hgt (s : sh) : nat := match s with L => 0 | B _ l r => S (Nat.max (hgt l) (hgt r)) end.
  Lemma hgt_addrs s : (hgt s <= length (addrs s))%nat.
  Proof. induction s as [|a l IHl r IHr]; cbn [hgt addrs length]; [lia|]. rewrite app_length. lia. Qed.
  Lemma len_caddrs c : (length c <= length (caddrs c))%nat.
  Proof. induction c as [|((a, d), y) c IH]; cbn [caddrs length]; [lia|]. rewrite app_length. lia. Qed.
  Lemma nodup_bound l n : NoDup l -> (forall a, In a l -> (a < n)%nat) -> (length l <= n)%nat.
  Proof.
    intros Hn Hl. rewrite <- (seq_length n 0). apply NoDup_incl_length; [exact Hn|]. intros a Ha. apply in_seq. pose proof (Hl a Ha). lia.
  Qed.
  Lemma ok_fuel m root c s : ok m root c s -> (length c + hgt s < next m)%nat.
  Proof.
    intros [_ _ _ Hn Hl]. pose proof (nodup_bound _ _ Hn Hl) as X. cbn [length] in X. rewrite app_length in X.
    pose proof (hgt_addrs s). pose proof (len_caddrs c). lia.
  Qed.
End Rotate.
