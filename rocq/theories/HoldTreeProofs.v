From Verif Require Import Base Bind Machine OrderSpec AvlTree AvlSpec IndexModel IndexHeapModel IndexHeapProofs IndexHeapReadProofs
  IndexHeapProps TreelistHeapModel TreelistHeapProps HoldSpec HoldProofs.

(** ** search trees with Parent pointers *)
Section Tree.
  Context {K V : Type}.
  Implicit Types m : mem K V.
  (** the pointers out of a node; tree.root's own Parent field is not among them (no line of the package sets it) *)
  Definition tree_edge m (root a b : nat) : Prop := (exists d, Children m a d = Some b) \/ (a <> root /\ Parent m a = Some b).
  Definition node_entry m (a : nat) : option (K * V) := Some (Key m a, Value m a).

  (** the addresses in the order of the keys *)
  Fixpoint inorder (s : sh) : list nat := match s with L => [] | B a l r => inorder l ++ a :: inorder r end.
  Lemma inorder_addrs s : Permutation (inorder s) (addrs s).
  Proof.
    induction s as [|a l IHl r IHr]; [reflexivity|]. cbn [inorder addrs]. rewrite <- IHl, <- IHr. symmetry. apply Permutation_middle.
  Qed.
  Lemma inorder_entries m s : map (node_entry m) (inorder s) = map Some (elems (view m s)).
  Proof. induction s as [|a l IHl r IHr]; [reflexivity|]. cbn [inorder view elems]. rewrite !map_app. cbn [map]. rewrite IHl, IHr. reflexivity. Qed.

  Lemma kids_in m s : forall a d b, body m s -> In a (addrs s) -> Children m a d = Some b -> In b (addrs s).
  Proof.
    induction s as [|x l IHl r IHr]; intros a d b Hb Ha Hk; [destruct Ha|]. cbn [body addrs In] in *. destruct Hb as (Kl & Kr & _ & _ & Bl & Br).
    destruct Ha as [<-|Ha].
    - right. apply in_or_app. destruct d; [right; rewrite Kr in Hk; destruct r|left; rewrite Kl in Hk; destruct l]; try discriminate; left; cbn in Hk; congruence.
    - right. apply in_or_app. apply in_app_or in Ha as [Ha|Ha]; [left; eauto|right; eauto].
  Qed.
  Lemma parent_in m s : forall p a q, body m s -> hangs m p s -> In a (addrs s) -> Parent m a = Some q -> q = p \/ In q (addrs s).
  Proof.
    induction s as [|x l IHl r IHr]; intros p a q Hb Hp Ha Hq; [destruct Ha|]. cbn [body hangs addrs In] in *. destruct Hb as (_ & _ & Hl & Hr & Bl & Br).
    destruct Ha as [<-|Ha]; [left; congruence|]. right. apply in_app_or in Ha as [Ha|Ha].
    - destruct (IHl x a q Bl Hl Ha Hq) as [->|H]; [now left|right; apply in_or_app; auto].
    - destruct (IHr x a q Br Hr Ha Hq) as [->|H]; [now left|right; apply in_or_app; auto].
  Qed.
  Lemma tree_closed m root s a b : ok m root [] s -> In a (root :: addrs s) -> tree_edge m root a b -> In b (root :: addrs s).
  Proof.
    intros O Ha He. pose proof (ok_c _ _ _ _ O) as (C1 & C2). pose proof (ok_h _ _ _ _ O) as Hh. pose proof (ok_b _ _ _ _ O) as Hb. cbn [top] in Hh.
    destruct Ha as [<-|Ha].
    - destruct He as [(d & Hk)|(Hne & _)]; [|congruence]. destruct d; [congruence|]. right. rewrite C1 in Hk. destruct s; [discriminate|]. left. cbn in Hk. congruence.
    - destruct He as [(d & Hk)|(_ & Hq)]; [right; eapply kids_in; eauto|]. destruct (parent_in m s root a b Hb Hh Ha Hq); [now left|now right].
  Qed.
  Lemma tree_held m (edge : nat -> nat -> Prop) (rt : nat -> Prop) s : (forall a d b, Children m a d = Some b -> edge a b) -> body m s ->
    (forall a, pt s = Some a -> held edge rt a) -> forall a, In a (addrs s) -> held edge rt a.
  Proof.
    intros He. induction s as [|x l IHl r IHr]; intros Hb Hx a Ha; [destruct Ha|]. cbn [body addrs In] in *. destruct Hb as (Kl & Kr & _ & _ & Bl & Br).
    pose proof (Hx x eq_refl) as Hh. destruct Ha as [<-|Ha]; [exact Hh|]. apply in_app_or in Ha as [Ha|Ha].
    - apply IHl; auto. intros y Hy. apply (held_edge _ _ x y Hh). apply (He x false). congruence.
    - apply IHr; auto. intros y Hy. apply (held_edge _ _ x y Hh). apply (He x true). congruence.
  Qed.

  Lemma tree_holds m root t : rep m root t -> holds_just (tree_edge m root) (eq root) [root] (node_entry m) (elems t).
  Proof.
    intros (s & O & <-). apply (holds_intro _ _ _ _ _ (inorder s)); cbn [app].
    - apply (Permutation_NoDup (l := root :: addrs s)); [apply perm_skip; symmetry; apply inorder_addrs|]. exact (ok_n _ _ _ _ O).
    - intros a <-. now left.
    - assert (P : Permutation (root :: inorder s) (root :: addrs s)) by (apply perm_skip, inorder_addrs).
      intros a b Ha He. apply (Permutation_in _ (Permutation_sym P)). apply (Permutation_in _ P) in Ha. exact (tree_closed m root s a b O Ha He).
    - assert (Hr : held (tree_edge m root) (eq root) root) by (apply held_root; reflexivity).
      intros a [<-|Ha]; [exact Hr|]. apply (Permutation_in _ (inorder_addrs s)) in Ha.
      apply (tree_held m (tree_edge m root) (eq root) s); [intros x d y H; left; eauto|exact (ok_b _ _ _ _ O)| |exact Ha].
      intros x Hx. apply (held_edge _ _ root x Hr). left. exists false. pose proof (ok_c _ _ _ _ O) as (C1 & _). congruence.
    - apply inorder_entries.
  Qed.
End Tree.

(** ** with Direct pointers too *)
Section Thread.
  Context {K V : Type}.
  Implicit Types m : tmem K V.
  Definition list_edge m (root a b : nat) : Prop := tree_edge (base m) root a b \/ exists d, Direct m a d = Some b.

  Lemma follows_in m d l : forall p a b, follows m d p l -> In a l -> Direct m a d = Some b -> In b l.
  Proof.
    induction l as [|x l IH]; intros p a b Hf Ha Hd; [destruct Ha|]. cbn [follows] in Hf. destruct Hf as (_ & Hf).
    destruct Ha as [<-|Ha]; right; [|eapply IH; eauto]. destruct l as [|y l]; cbn [follows] in Hf; [congruence|]. destruct Hf as (Hf & _). left. congruence.
  Qed.
  Lemma follows_hd m d l p b : follows m d p l -> p = Some b -> In b l.
  Proof. destruct l as [|x l]; cbn [follows]; intros H E1; [congruence|]. destruct H as (H & _). left. congruence. Qed.

  Lemma list_holds m s l (xs : list (K * V)) : ok (base m) 0 [] s -> threaded m 0 l -> (forall a, In a l <-> In a (addrs s)) ->
    map (fun a => (Key (base m) a, Value (base m) a)) l = xs ->
    holds_just (list_edge m 0) (eq 0) [0] (node_entry (base m)) xs.
  Proof.
    intros O Ht Hl <-. apply (holds_intro _ _ _ _ _ l); cbn [app].
    - constructor; [|exact (th_once _ _ _ Ht)]. rewrite Hl. pose proof (ok_n _ _ _ _ O) as Hn. cbn [caddrs app] in Hn. apply NoDup_cons_iff in Hn. tauto.
    - intros a <-. now left.
    - intros a b Ha [He|(d & Hd)].
      + assert (X : In b (0 :: addrs s)); [|destruct X as [X|X]; [now left|right; now apply Hl]].
        apply (tree_closed (base m) 0 s a b O); [|exact He]. destruct Ha as [Ha|Ha]; [now left|right; now apply Hl].
      + right. destruct Ha as [<-|Ha].
        * destruct d; [apply (in_rev l); eapply follows_hd; [exact (th_back _ _ _ Ht)|exact Hd]|eapply follows_hd; [exact (th_forth _ _ _ Ht)|exact Hd]].
        * destruct d; [exact (follows_in m true l _ a b (th_forth _ _ _ Ht) Ha Hd)|].
          apply (in_rev l). apply (follows_in m false (rev l) _ a b (th_back _ _ _ Ht)); [now apply (in_rev l) in Ha|exact Hd].
    - assert (Hr : held (list_edge m 0) (eq 0) 0) by (apply held_root; reflexivity).
      intros a [<-|Ha]; [exact Hr|]. apply Hl in Ha.
      apply (tree_held (base m) (list_edge m 0) (eq 0) s); [intros x d y H; left; left; eauto|exact (ok_b _ _ _ _ O)| |exact Ha].
      intros x Hx. apply (held_edge _ _ 0 x Hr). left. left. exists false. pose proof (ok_c _ _ _ _ O) as (C1 & _). congruence.
    - unfold node_entry. rewrite map_map. reflexivity.
  Qed.
End Thread.
