(** Comparators that answer other numbers than -1, 0 and 1: what depends on the sign of the answer only. *)
From Verif Require Import Base Bind Machine OrderSpec SMapSpec AvlTree AvlModel IndexSpec IndexModel OrderedMapSpec OrderedMapModel
  TreelistSpec TreelistModel TreelistSetModel.
Local Open Scope Z_scope.

Section Sign.
  Context {K : Type} (cmp : K -> K -> Z).
  Definition sgn (a b : K) : Z := Z.sgn (cmp a b).
  Lemma sgn_lt a b : (sgn a b <? 0) = (cmp a b <? 0).
  Proof. unfold sgn. destruct (cmp a b); reflexivity. Qed.
  Lemma sgn_gt a b : (sgn a b >? 0) = (cmp a b >? 0).
  Proof. unfold sgn. destruct (cmp a b); reflexivity. Qed.
  Lemma sgn_eq a b : (sgn a b =? 0) = (cmp a b =? 0).
  Proof. unfold sgn. destruct (cmp a b); reflexivity. Qed.
  Lemma sgn_plain ltb : weak_order ltb -> sign_cmp ltb cmp -> plain_cmp ltb sgn.
  Proof.
    intros W H a b. unfold sgn. destruct (H a b) as (H1 & H2). destruct (ltb a b) eqn:E1; [|destruct (ltb b a) eqn:E2].
    - apply Z.sgn_neg. apply H1. reflexivity.
    - apply Z.sgn_pos. apply H2. reflexivity.
    - destruct (Z.lt_trichotomy (cmp a b) 0) as [X|[X|X]]; [apply H1 in X; discriminate|rewrite X; reflexivity|apply H2 in X; discriminate].
  Qed.

  Section Index.
    Context {V : Type}.
    Notation tree := (tree K V).
    Lemma put_sgn shift hit key value (t : tree) : IndexModel.put sgn shift hit key value t = IndexModel.put cmp shift hit key value t.
    Proof. induction t as [|s k v l IHl r IHr]; [reflexivity|]. cbn [IndexModel.put]. rewrite sgn_lt, sgn_gt, IHl, IHr. reflexivity. Qed.
    Lemma getNode_sgn key (t : tree) : IndexModel.getNode sgn key t = IndexModel.getNode cmp key t.
    Proof. induction t as [|s k v l IHl r IHr]; [reflexivity|]. cbn [IndexModel.getNode]. rewrite sgn_lt, sgn_gt, IHl, IHr. reflexivity. Qed.
    Lemma setValue_sgn key value (t : tree) : setValue sgn key value t = setValue cmp key value t.
    Proof. induction t as [|s k v l IHl r IHr]; [reflexivity|]. cbn [setValue]. rewrite sgn_lt, sgn_gt, IHl, IHr. reflexivity. Qed.
    Lemma indexOfLoop_sgn key (t : tree) : forall i, indexOfLoop sgn key i t = indexOfLoop cmp key i t.
    Proof. induction t as [|s k v l IHl r IHr]; intros i; [reflexivity|]. cbn [indexOfLoop]. rewrite sgn_lt, sgn_gt, IHl, IHr. reflexivity. Qed.
    Lemma removeKey_sgn key (t : tree) : removeKey sgn key t = removeKey cmp key t.
    Proof. induction t as [|s k v l IHl r IHr]; [reflexivity|]. cbn [removeKey]. rewrite sgn_lt, sgn_gt, IHl, IHr. reflexivity. Qed.
    Lemma splitBelow_sgn contain key (t : tree) : splitBelow sgn contain key t = splitBelow cmp contain key t.
    Proof. induction t as [|s k v l IHl r IHr]; [reflexivity|]. cbn [splitBelow]. rewrite sgn_lt, sgn_gt, IHl, IHr. reflexivity. Qed.
    Lemma goesLeft_sgn contain key k : goesLeft sgn contain key k = goesLeft cmp contain key k.
    Proof. unfold goesLeft. rewrite sgn_lt, sgn_gt. reflexivity. Qed.
    Lemma splitRun_sgn contain run key (t : tree) : splitRun sgn contain run key t = splitRun cmp contain run key t.
    Proof.
      induction t as [|s k v l IHl r IHr]; [reflexivity|]. cbn [splitRun].
      rewrite goesLeft_sgn, !splitBelow_sgn, IHl, IHr. reflexivity.
    Qed.
    Lemma Split_sgn contain key (t : tree) : Split sgn contain key t = Split cmp contain key t.
    Proof. destruct t as [|s k v l r]; [reflexivity|]. unfold Split. rewrite goesLeft_sgn, !splitRun_sgn. reflexivity. Qed.
  End Index.

  Lemma step_sgn {A : Type} shift (t : tree K (option A)) o : (forall lo hi, o <> XRemoveRange lo hi /\ o <> XTrim lo hi) ->
    step sgn shift t o = step cmp shift t o.
  Proof.
    intros Ho. destruct o; cbn [step]; try reflexivity.
    - unfold Put. rewrite put_sgn. reflexivity.
    - unfold Put. rewrite put_sgn. reflexivity.
    - unfold Set_. rewrite put_sgn. reflexivity.
    - unfold Upsert, Put. rewrite put_sgn, getNode_sgn, setValue_sgn. reflexivity.
    - rewrite getNode_sgn. reflexivity.
    - rewrite removeKey_sgn. reflexivity.
    - rewrite removeKey_sgn. reflexivity.
    - unfold IndexModel.IndexOf. rewrite indexOfLoop_sgn. reflexivity.
    - destruct (Ho lo hi) as (X & _). destruct (X eq_refl).
    - destruct (Ho lo hi) as (_ & X). destruct (X eq_refl).
    - rewrite Split_sgn. reflexivity.
  Qed.

  Lemma omstep_sgn {A : Type} shift zk zv (t : tree K (option A)) o : omstep sgn shift zk zv t o = omstep cmp shift zk zv t o.
  Proof. destruct o; unfold omstep; rewrite ?step_sgn by (intros; split; discriminate); reflexivity. Qed.

  Section Treelist.
    Context {V : Type}.
    Lemma tlput_sgn hit x key value (t : tree K (nat * V)) : forall a b,
      TreelistModel.put sgn hit x key value a b t = TreelistModel.put cmp hit x key value a b t.
    Proof. induction t as [|s k [i v] l IHl r IHr]; intros a b; [reflexivity|]. cbn [TreelistModel.put]. rewrite sgn_lt, sgn_gt, IHl, IHr. reflexivity. Qed.
    Lemma putWith_sgn key value b1 b2 hit (s : TreelistModel.tl K V) : putWith sgn key value b1 b2 hit s = putWith cmp key value b1 b2 hit s.
    Proof. unfold putWith. rewrite tlput_sgn. reflexivity. Qed.
    Lemma tl_step_sgn (s : TreelistModel.tl K V) o : (forall lo hi, o <> TRemoveRange lo hi /\ o <> TTrim lo hi) ->
      tl_step sgn s o = tl_step cmp s o.
    Proof.
      intros Ho. destruct o; cbn [tl_step]; try reflexivity.
      - rewrite putWith_sgn. reflexivity.
      - rewrite putWith_sgn. reflexivity.
      - rewrite putWith_sgn. reflexivity.
      - unfold getNode. rewrite getNode_sgn. reflexivity.
      - unfold Remove, getNode. rewrite getNode_sgn. reflexivity.
      - unfold IndexOf, IndexModel.IndexOf. rewrite indexOfLoop_sgn. reflexivity.
      - destruct (Ho lo hi) as (X & _). destruct (X eq_refl).
      - destruct (Ho lo hi) as (_ & X). destruct (X eq_refl).
    Qed.

    Lemma emit_sgn op (s1 s2 : TreelistModel.tl K V) x1 x2 c : emit op s1 s2 x1 x2 (Z.sgn c) = emit op s1 s2 x1 x2 c.
    Proof. destruct c; reflexivity. Qed.
    Lemma compareAt_sgn (s1 s2 : TreelistModel.tl K V) x1 x2 : compareAt sgn s1 s2 x1 x2 = option_map Z.sgn (compareAt cmp s1 s2 x1 x2).
    Proof. unfold compareAt. destruct (slice x1 (top s1)) as [[k1 ?]|]; [|reflexivity]. destruct (slice x2 (top s2)) as [[k2 ?]|]; reflexivity. Qed.
    Lemma countLoop_sgn op (s1 s2 : TreelistModel.tl K V) fuel : forall h n, countLoop sgn fuel op s1 s2 h n = countLoop cmp fuel op s1 s2 h n.
    Proof.
      induction fuel as [|fuel IH]; intros [[x1|] [x2|]] n; try reflexivity. cbn [countLoop]. rewrite compareAt_sgn.
      destruct (compareAt cmp s1 s2 x1 x2) as [c|]; cbn [option_map]; [|reflexivity]. rewrite emit_sgn.
      destruct (emit op s1 s2 x1 x2 c) as [h' out]. apply IH.
    Qed.
    Lemma next_sgn op (s1 s2 : TreelistModel.tl K V) fuel : forall h, next sgn fuel op s1 s2 h = next cmp fuel op s1 s2 h.
    Proof.
      induction fuel as [|fuel IH]; intros [[x1|] [x2|]]; try reflexivity. cbn [next]. rewrite compareAt_sgn.
      destruct (compareAt cmp s1 s2 x1 x2) as [c|]; cbn [option_map]; [|reflexivity]. rewrite emit_sgn.
      destruct (emit op s1 s2 x1 x2 c) as [h' [[[|] x]|]]; try reflexivity. apply IH.
    Qed.
    Lemma build_sgn op (s1 s2 : TreelistModel.tl K V) fuel depth : forall n st, build sgn depth fuel op s1 s2 n st = build cmp depth fuel op s1 s2 n st.
    Proof.
      induction depth as [|depth IH]; intros n st; cbn [build]; [reflexivity|]. destruct (n =? 0); [reflexivity|].
      rewrite IH. destruct (build cmp depth fuel op s1 s2 _ _) as [[l st1]|]; [|reflexivity]. rewrite next_sgn.
      destruct (next cmp fuel op s1 s2 _) as [[h [k v]]|]; [|reflexivity]. rewrite IH. reflexivity.
    Qed.
    Lemma setOperation_sgn op (s1 s2 : TreelistModel.tl K V) : setOperation sgn op s1 s2 = setOperation cmp op s1 s2.
    Proof.
      unfold setOperation. rewrite countLoop_sgn. destruct (countLoop cmp _ op s1 s2 _ 0) as [c|]; [|reflexivity].
      destruct (c =? 0); [reflexivity|]. rewrite build_sgn. reflexivity.
    Qed.
  End Treelist.
End Sign.

(** runs of two machines that agree on the calls made *)
Lemma srun_same {S O R : Type} (f g : S -> O -> S * R) (ok : O -> Prop) : (forall s o, ok o -> f s o = g s o) ->
  forall ops s, (forall o, In o ops -> ok o) -> srun f s ops = srun g s ops /\ sreach f s ops = sreach g s ops.
Proof.
  intros H. induction ops as [|o ops IH]; intros s Ho; [split; reflexivity|]. cbn [srun sreach].
  rewrite (H s o) by (apply Ho; left; reflexivity).
  destruct (g s o) as [s' r]. cbn [fst]. destruct (IH s') as (-> & ->); [intros x Hx; apply Ho; right; exact Hx|]. split; reflexivity.
Qed.
