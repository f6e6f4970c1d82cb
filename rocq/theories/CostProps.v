(** How often tree/avl, set/treeset, tree/avls and tree/heap ask the comparator (C68). *)
From Verif Require Import Base Bind Machine OrderSpec SMapSpec CompareModel AvlTree AvlSpec AvlModel AvlsModel HeapSpec CostModel.
From Verif Require HeapModel AvlProps AvlsProps TreeSetProps HeapProps.
Local Open Scope Z_scope.

(** another comparator that gives the same answers to the given questions *)
Definition same_answers {A} (c c' : A -> A -> Z) (qs : list (A * A)) : Prop := forall a b, In (a, b) qs -> c' a b = c a b.
Lemma same_app {A} (c c' : A -> A -> Z) q1 q2 : same_answers c c' (q1 ++ q2) -> same_answers c c' q1 /\ same_answers c c' q2.
Proof. intros H. split; intros a b Hi; apply H, in_or_app; auto. Qed.
Lemma same_cons {A} (c c' : A -> A -> Z) a b q : same_answers c c' ((a, b) :: q) -> c' a b = c a b /\ same_answers c c' q.
Proof. intros H. split; [apply H; left; reflexivity|]. intros x y Hi. apply H. right. exact Hi. Qed.

Section Avl.
  Context {K V : Type} (cmp cmp' : K -> K -> Z) (st : style) (d : Z).
  Lemma put_same hit key v (t : tree K V) : same_answers cmp cmp' (walk cmp key t) -> forall alone,
    put cmp' st d hit key v t alone = put cmp st d hit key v t alone.
  Proof.
    induction t as [|h ck cv l IHl r IHr]; intros H alone; [reflexivity|]. cbn [walk] in H. apply same_cons in H as (H0 & H). cbn [put]. rewrite H0.
    destruct (cmp ck key <? 0); [reflexivity|]. destruct (cmp ck key =? 0); [rewrite (IHl H); reflexivity|].
    destruct (cmp ck key =? 1); [rewrite (IHr H); reflexivity|reflexivity].
  Qed.
  Lemma get_same key (t : tree K V) : same_answers cmp cmp' (walk cmp key t) -> get cmp' key t = get cmp key t.
  Proof.
    induction t as [|h ck cv l IHl r IHr]; intros H; [reflexivity|]. cbn [walk] in H. apply same_cons in H as (H0 & H). cbn [get]. rewrite H0.
    destruct (cmp ck key <? 0); [reflexivity|]. destruct (cmp ck key =? 0); [apply (IHl H)|]. destruct (cmp ck key =? 1); [apply (IHr H)|reflexivity].
  Qed.
  Lemma get_write_same key v (t : tree K V) : same_answers cmp cmp' (walk cmp key t) -> get_write cmp' key v t = get_write cmp key v t.
  Proof.
    induction t as [|h ck cv l IHl r IHr]; intros H; [reflexivity|]. cbn [walk] in H. apply same_cons in H as (H0 & H). cbn [get_write]. rewrite H0.
    destruct (cmp ck key <? 0); [reflexivity|]. destruct (cmp ck key =? 0); [rewrite (IHl H); reflexivity|]. destruct (cmp ck key =? 1); [rewrite (IHr H); reflexivity|reflexivity].
  Qed.
  Lemma remove_same key (t : tree K V) : same_answers cmp cmp' (walk cmp key t) -> forall side, remove cmp' st d key t side = remove cmp st d key t side.
  Proof.
    induction t as [|h ck cv l IHl r IHr]; intros H side; [reflexivity|]. cbn [walk] in H. apply same_cons in H as (H0 & H). cbn [remove]. rewrite H0.
    destruct (cmp ck key <? 0); [reflexivity|]. destruct (cmp ck key =? 0); [rewrite (IHl H); reflexivity|]. destruct (cmp ck key =? 1); [rewrite (IHr H); reflexivity|reflexivity].
  Qed.

  (** The comparator is asked no other question than those listed: a comparator that answers these alike makes no
      difference to the new tree and the answer. *)
  Theorem C68_avl_calls_complete (s : avl K V) o : same_answers cmp cmp' (avl_calls cmp s o) -> step cmp' st d s o = step cmp st d s o.
  Proof.
    intros H. destruct o; cbn [avl_calls] in H; cbn [step]; try reflexivity.
    - unfold put_. rewrite (put_same _ _ _ _ H). reflexivity.
    - unfold put_. rewrite (put_same _ _ _ _ H). reflexivity.
    - unfold set. rewrite (put_same _ _ _ _ H). reflexivity.
    - apply same_app in H as (H & H2). unfold upsert. rewrite (get_same _ _ H), (get_write_same _ _ _ H).
      destruct (get cmp k (root s)) as [[e|]|]; try reflexivity. unfold set. rewrite (put_same _ _ _ _ H2). reflexivity.
    - unfold get_. rewrite (get_same _ _ H). reflexivity.
    - unfold contains, get_. rewrite (get_same _ _ H). reflexivity.
    - unfold remove_. rewrite (remove_same _ _ H). reflexivity.
    - unfold remove_. rewrite (remove_same _ _ H). reflexivity.
  Qed.

  Lemma mput_same key v (t : tree K V) : same_answers cmp cmp' (walkPut cmp key t) -> forall alone, mput cmp' d key v t alone = mput cmp d key v t alone.
  Proof.
    induction t as [|h ck cv l IHl r IHr]; intros H alone; [reflexivity|]. cbn [walkPut] in H. apply same_cons in H as (H0 & H). cbn [mput]. rewrite H0.
    cbv zeta in H |- *. set (c := if cmp ck key <? 0 then 1 else cmp ck key) in *. destruct (c =? 0); [rewrite (IHl H); reflexivity|].
    destruct (c =? 1); [rewrite (IHr H); reflexivity|reflexivity].
  Qed.
  Lemma mget_same key (t : tree K V) : same_answers cmp cmp' (walkGet cmp key t) -> mget cmp' key t = mget cmp key t.
  Proof.
    induction t as [|h ck cv l IHl r IHr]; intros H; [reflexivity|]. cbn [walkGet] in H. apply same_cons in H as (H0 & H). cbn [mget]. rewrite H0. cbv zeta in H |- *.
    destruct (cmp ck key <? 0); [rewrite (IHl H); reflexivity|]. destruct (cmp ck key =? 0); [apply (IHl H)|]. destruct (cmp ck key =? 1); [apply (IHr H)|reflexivity].
  Qed.
  Lemma mget_write_same key v (t : tree K V) : same_answers cmp cmp' (walkGet cmp key t) -> mget_write cmp' key v t = mget_write cmp key v t.
  Proof.
    induction t as [|h ck cv l IHl r IHr]; intros H; [reflexivity|]. cbn [walkGet] in H. apply same_cons in H as (H0 & H). cbn [mget_write]. rewrite H0. cbv zeta in H |- *.
    destruct (cmp ck key <? 0); [rewrite (IHl H); reflexivity|]. destruct (cmp ck key =? 0); [rewrite (IHl H); reflexivity|]. destruct (cmp ck key =? 1); [rewrite (IHr H); reflexivity|reflexivity].
  Qed.
  Lemma removeLeft_same key (t : tree K V) : same_answers cmp cmp' (walkGet cmp key t) -> forall side, removeLeft cmp' d key t side = removeLeft cmp d key t side.
  Proof.
    induction t as [|h ck cv l IHl r IHr]; intros H side; [reflexivity|]. cbn [walkGet] in H. apply same_cons in H as (H0 & H). cbn [removeLeft]. rewrite H0. cbv zeta in H |- *.
    destruct (cmp ck key <? 0); [rewrite (IHl H); reflexivity|]. destruct (cmp ck key =? 0); [rewrite (IHl H); reflexivity|]. destruct (cmp ck key =? 1); [rewrite (IHr H); reflexivity|reflexivity].
  Qed.
  Theorem C68_avls_calls_complete (s : avl K V) o : same_answers cmp cmp' (avls_calls cmp s o) -> mstep cmp' d s o = mstep cmp d s o.
  Proof.
    intros H. destruct o; cbn [avls_calls] in H; cbn [mstep]; try reflexivity.
    - unfold sput. rewrite (mput_same _ _ _ H). reflexivity.
    - apply same_app in H as (H & H2). unfold sinsert, sget, sput. rewrite (mget_same _ _ H).
      destruct (mget cmp k (root s)) as [[e|]|]; try reflexivity. cbn. rewrite (mput_same _ _ _ H2). reflexivity.
    - apply same_app in H as (H & H2). unfold sset. rewrite (mget_same _ _ H), (mget_write_same _ _ _ H).
      destruct (mget cmp k (root s)) as [[e|]|]; try reflexivity. rewrite (mput_same _ _ _ H2). reflexivity.
    - apply same_app in H as (H & H2). unfold supsert, sput. rewrite (mget_same _ _ H), (mget_write_same _ _ _ H).
      destruct (mget cmp k (root s)) as [[e|]|]; try reflexivity. rewrite (mput_same _ _ _ H2). reflexivity.
    - unfold sget. rewrite (mget_same _ _ H). reflexivity.
    - unfold sget. rewrite (mget_same _ _ H). reflexivity.
    - unfold sremove. rewrite (removeLeft_same _ _ H). reflexivity.
    - unfold sremove. rewrite (removeLeft_same _ _ H). reflexivity.
  Qed.
End Avl.
Lemma walk_ht {K V} cmp key (t : tree K V) : Z.of_nat (length (walk cmp key t)) <= ht t.
Proof.
  induction t as [|h ck cv l IHl r IHr]; cbn [walk ht length]; [lia|].
  destruct (cmp ck key <? 0); [|destruct (cmp ck key =? 0); [|destruct (cmp ck key =? 1)]]; cbn [length]; try lia;
    assert (forall u : tree K V, 0 <= ht u) as P by (induction u; cbn [ht]; lia); pose proof (P l); pose proof (P r); lia.
Qed.

Lemma walkPut_ht {K V} cmp key (t : tree K V) : Z.of_nat (length (walkPut cmp key t)) <= ht t.
Proof.
  assert (forall u : tree K V, 0 <= ht u) as P by (induction u; cbn [ht]; lia).
  induction t as [|h ck cv l IHl r IHr]; cbn [walkPut ht length]; [lia|]. cbv zeta. set (c := if _ <? 0 then _ else _). pose proof (P l). pose proof (P r).
  destruct (c =? 0); [lia|]. destruct (c =? 1); cbn [length]; lia.
Qed.
Lemma walkGet_ht {K V} cmp key (t : tree K V) : Z.of_nat (length (walkGet cmp key t)) <= ht t.
Proof.
  assert (forall u : tree K V, 0 <= ht u) as P by (induction u; cbn [ht]; lia).
  induction t as [|h ck cv l IHl r IHr]; cbn [walkGet ht length]; [lia|]. cbv zeta. pose proof (P l). pose proof (P r).
  destruct (cmp ck key <? 0); [lia|]. destruct (cmp ck key =? 0); [lia|]. destruct (cmp ck key =? 1); cbn [length]; lia.
Qed.

Lemma fib_pow n : 2 ^ (Z.of_nat n / 2) <= fib (n + 2).
Proof.
  assert (forall n, 2 ^ (Z.of_nat n / 2) <= fib (n + 2) /\ 2 ^ (Z.of_nat (S n) / 2) <= fib (S n + 2)) as H; [|apply H].
  clear. induction n as [|n (IH1 & IH2)]; [cbn; lia|]. split; [exact IH2|].
  replace (Z.of_nat (S (S n)) / 2) with (Z.of_nat n / 2 + 1).
  - rewrite Z.pow_add_r by (try apply Z.div_pos; lia). change (S (S n) + 2)%nat with (S (S (n + 2)%nat)).
    assert (F : fib (S (S (n + 2))) = fib (S (n + 2)) + fib (n + 2)) by reflexivity. rewrite F.
    assert (M : fib (n + 2) <= fib (S (n + 2))).
    { replace (n + 2)%nat with (S (S n)) by lia. assert (F2 : fib (S (S (S n))) = fib (S (S n)) + fib (S n)) by reflexivity. rewrite F2.
      assert (forall m, 0 <= fib m /\ 0 <= fib (S m)) as P. { induction m as [|m (P1 & P2)]; [cbn; lia|]. split; [exact P2|]. assert (F3 : fib (S (S m)) = fib (S m) + fib m) by reflexivity. rewrite F3. lia. }
      pose proof (P (S n)). lia. }
    lia.
  - replace (Z.of_nat (S (S n))) with (Z.of_nat n + 1 * 2) by lia. rewrite Z.div_add by lia. reflexivity.
Qed.

Lemma fib_log h n : 0 <= n -> 0 <= h -> fib (Z.to_nat h + 2) <= n + 1 -> h <= 2 * Z.log2 (n + 1) + 1.
Proof.
  intros Hn Hh H. pose proof (fib_pow (Z.to_nat h)) as F. rewrite Z2Nat.id in F by lia.
  assert (L : h / 2 <= Z.log2 (n + 1)) by (apply Z.log2_le_pow2; lia).
  pose proof (Z.div_mod h 2 ltac:(lia)). pose proof (Z.mod_pos_bound h 2 ltac:(lia)). lia.
Qed.

(** the calls that look at a key, and those that may look twice *)
Definition looks {K V} (o : sm_op K V) : Z :=
  match o with
  | MUpsert _ _ => 2
  | MPut _ _ | MInsertIfAbsent _ _ | MSet _ _ | MGet _ | MContains _ | MRemove _ | MDelete _ => 1
  | MClear | MSize | MLen | MEmpty | MValues | MTraverse _ => 0
  end.
Definition looks2 {K V} (o : sm_op K V) : Z :=
  match o with
  | MUpsert _ _ | MSet _ _ | MInsertIfAbsent _ _ => 2
  | MPut _ _ | MGet _ | MContains _ | MRemove _ | MDelete _ => 1
  | MClear | MSize | MLen | MEmpty | MValues | MTraverse _ => 0
  end.
Section AvlBound.
  Context {K V : Type} (ltb : K -> K -> bool) (W : weak_order ltb) (cmp : K -> K -> Z) (Hcmp : ex_cmp ltb cmp).
  Lemma ht_pos (u : tree K V) : 0 <= ht u.
  Proof. induction u; cbn [ht]; lia. Qed.
  Lemma calls_ht (s : avl K V) o : Z.of_nat (length (avl_calls cmp s o)) <= looks o * ht (root s).
  Proof.
    assert (B : forall k, Z.of_nat (length (walk cmp k (root s))) <= ht (root s)) by (intros k; apply walk_ht).
    destruct o; cbn [avl_calls looks length]; try lia; try (specialize (B k); lia).
    rewrite app_length. specialize (B k). pose proof (ht_pos (root s)). destruct (get cmp k (root s)) as [[e|]|]; cbn [length]; lia.
  Qed.
  Lemma calls2_ht (s : avl K V) o : Z.of_nat (length (avls_calls cmp s o)) <= looks2 o * ht (root s).
  Proof.
    assert (B : forall k, Z.of_nat (length (walkGet cmp k (root s))) <= ht (root s)) by (intros k; apply walkGet_ht).
    assert (B2 : forall k, Z.of_nat (length (walkPut cmp k (root s))) <= ht (root s)) by (intros k; apply walkPut_ht).
    pose proof (ht_pos (root s)).
    destruct o; cbn [avls_calls looks2 length]; try lia; try (specialize (B k); specialize (B2 k); lia).
    all: rewrite app_length; specialize (B k); specialize (B2 k); destruct (mget cmp k (root s)) as [[e|]|]; cbn [length]; lia.
  Qed.
  (** After any calls, the next one asks the comparator at most 2 log2 (n+1) + 1 times in a tree of n entries, and twice as
      often if it looks up and then inserts: tree/avl with threshold 2, set/treeset and tree/avls. *)
  Theorem C68_avl_comparisons (ops : list (sm_op K V)) o : Z.of_nat (length ops) < 2 ^ 64 -> exists s,
    reach (step cmp Both 2) new ops = Some s /\ Z.of_nat (length (avl_calls cmp s o)) <= looks o * (2 * Z.log2 (Z.of_nat (size s) + 1) + 1).
  Proof.
    intros Hn. destruct (AvlProps.C22_threshold_two_is_avl_partial ltb W cmp Hcmp ops Hn) as (_ & s & H1 & _ & _ & H2). exists s. split; [exact H1|].
    pose proof (calls_ht s o) as C. pose proof (fib_log (ht (root s)) (Z.of_nat (size s)) ltac:(lia) (ht_pos _) H2) as F.
    assert (0 <= looks o) by (destruct o; cbn; lia). nia.
  Qed.
  Theorem C68_treeset_comparisons (ops : list (sm_op K V)) o : Z.of_nat (length ops) < 2 ^ 64 -> exists s,
    reach (step cmp One 2) new ops = Some s /\ Z.of_nat (length (avl_calls cmp s o)) <= looks o * (2 * Z.log2 (Z.of_nat (size s) + 1) + 1).
  Proof.
    intros Hn. destruct (TreeSetProps.C28_treeset_balanced ltb W cmp Hcmp ops Hn) as (s & H1 & _ & _ & _ & H2). exists s. split; [exact H1|].
    pose proof (calls_ht s o) as C. pose proof (fib_log (ht (root s)) (Z.of_nat (size s)) ltac:(lia) (ht_pos _) H2) as F.
    assert (0 <= looks o) by (destruct o; cbn; lia). nia.
  Qed.
  Theorem C68_avls_comparisons (ops : list (sm_op K V)) o : Z.of_nat (length ops) < 2 ^ 64 -> exists s,
    reach (mstep cmp 2) new ops = Some s /\ Z.of_nat (length (avls_calls cmp s o)) <= looks2 o * (2 * Z.log2 (Z.of_nat (size s) + 1) + 1).
  Proof.
    intros Hn. destruct (AvlsProps.C25_avls_balanced ltb W cmp Hcmp ops Hn) as (s & H1 & _ & _ & _ & H2). exists s. split; [exact H1|].
    pose proof (calls2_ht s o) as C. pose proof (fib_log (ht (root s)) (Z.of_nat (size s)) ltac:(lia) (ht_pos _) H2) as F.
    assert (0 <= looks2 o) by (destruct o; cbn; lia). nia.
  Qed.
End AvlBound.

Section Heap.
  Context {A : Type} (zero : A) (c c' : A -> A -> Z).
  Local Open Scope nat_scope.
  Lemma up_same v fuel : forall els i, same_answers c c' (up_calls c fuel els i v) -> HeapModel.sift_up c' fuel els i v = HeapModel.sift_up c fuel els i v.
  Proof.
    induction fuel as [|fuel IH]; intros els i H; [reflexivity|]. cbn [up_calls] in H. cbn [HeapModel.sift_up]. destruct (i =? 0); [reflexivity|].
    cbv zeta in H. destruct (nth_error els ((i - 1) / 2)) as [p|]; [|reflexivity]. apply same_cons in H as (-> & H). destruct (c v p <=? 0)%Z; [|reflexivity].
    destruct (HeapModel.set_at els i p) as [els'|]; [|reflexivity]. apply IH. exact H.
  Qed.
  Lemma down_same v sz fuel : forall els i, same_answers c c' (down_calls c fuel els sz i v) -> HeapModel.sift_down c' fuel els sz i v = HeapModel.sift_down c fuel els sz i v.
  Proof.
    induction fuel as [|fuel IH]; intros els i H; [reflexivity|]. cbn [down_calls] in H. cbn [HeapModel.sift_down]. cbv zeta in H |- *.
    assert (G : forall j, same_answers c c' match nth_error els j with None => [] | Some cv => (cv, v) :: (if (c cv v <=? 0)%Z then match HeapModel.set_at els i cv with None => [] | Some els' => down_calls c fuel els' sz j v end else []) end ->
      match nth_error els j with None => None | Some cv => if (c' cv v <=? 0)%Z then match HeapModel.set_at els i cv with None => None | Some els' => HeapModel.sift_down c' fuel els' sz j v end else HeapModel.set_at els i v end =
      match nth_error els j with None => None | Some cv => if (c cv v <=? 0)%Z then match HeapModel.set_at els i cv with None => None | Some els' => HeapModel.sift_down c fuel els' sz j v end else HeapModel.set_at els i v end).
    { intros j Hj. destruct (nth_error els j) as [cv|]; [|reflexivity]. apply same_cons in Hj as (-> & Hj). destruct (c cv v <=? 0)%Z; [|reflexivity].
      destruct (HeapModel.set_at els i cv); [|reflexivity]. apply IH. exact Hj. }
    destruct (2 * i + 2 <? sz).
    - destruct (nth_error els (2 * i + 1)) as [e1|]; [|reflexivity]. destruct (nth_error els (2 * i + 2)) as [e2|]; [|reflexivity].
      apply same_cons in H as (-> & H). apply G. exact H.
    - destruct (sz <=? 2 * i + 1); [reflexivity|]. apply G. exact H.
  Qed.
  (** The comparator is asked no other question than those listed. *)
  Theorem C68_heap_calls_complete h o : same_answers c c' (heap_calls zero c h o) -> HeapModel.step zero c' h o = HeapModel.step zero c h o.
  Proof.
    intros H. destruct o; cbn [heap_calls] in H; cbn [HeapModel.step]; try reflexivity.
    - unfold HeapModel.put. rewrite (up_same _ _ _ _ H). reflexivity.
    - unfold HeapModel.pop. cbv zeta in H |- *. destruct (HeapModel.size h =? 0); [reflexivity|]. destruct (nth_error (HeapModel.elements h) 0); [|reflexivity].
      destruct (nth_error _ (HeapModel.size (HeapModel.slimming _))) as [dv|]; [|reflexivity]. destruct (HeapModel.size (HeapModel.slimming _) =? 0); [reflexivity|].
      rewrite (down_same _ _ _ _ _ H). reflexivity.
  Qed.

  Lemma up_len v fuel : forall els i, length (up_calls c fuel els i v) <= Nat.log2 (i + 1).
  Proof.
    induction fuel as [|fuel IH]; intros els i; [cbn; lia|]. cbn [up_calls]. destruct (Nat.eqb_spec i 0) as [|Hi]; [cbn; lia|]. cbv zeta.
    destruct (nth_error els ((i - 1) / 2)) as [p|]; [|cbn; lia]. cbn [length].
    assert (L : S (Nat.log2 ((i - 1) / 2 + 1)) = Nat.log2 (i + 1)).
    { pose proof (Nat.div_mod (i - 1) 2 ltac:(lia)) as D. pose proof (Nat.mod_upper_bound (i - 1) 2 ltac:(lia)) as M. set (q := (i - 1) / 2) in *.
      assert (i + 1 = 2 * (q + 1) \/ i + 1 = 2 * (q + 1) + 1) as [->| ->] by lia; [rewrite Nat.log2_double by lia|rewrite Nat.log2_succ_double by lia]; reflexivity. }
    rewrite <- L. destruct (c v p <=? 0)%Z; [|cbn; lia]. destruct (HeapModel.set_at els i p) as [els'|]; [|cbn; lia]. specialize (IH els' ((i - 1) / 2)). lia.
  Qed.
  Lemma down_len v sz fuel : forall els i, i < sz -> length (down_calls c fuel els sz i v) + 2 * Nat.log2 (i + 1) <= 2 * Nat.log2 sz.
  Proof.
    induction fuel as [|fuel IH]; intros els i Hi.
    - cbn [down_calls length]. pose proof (Nat.log2_le_mono (i + 1) sz ltac:(lia)). lia.
    - cbn [down_calls]. cbv zeta.
      assert (L0 : Nat.log2 (i + 1) <= Nat.log2 sz) by (apply Nat.log2_le_mono; lia).
      assert (G : forall j, (j = 2 * i + 1 \/ j = 2 * i + 2) -> j < sz ->
        length match nth_error els j with None => [] | Some cv => (cv, v) :: (if (c cv v <=? 0)%Z then match HeapModel.set_at els i cv with None => [] | Some els' => down_calls c fuel els' sz j v end else []) end
          + 2 * Nat.log2 (i + 1) + 1 <= 2 * Nat.log2 sz).
      { intros j Hj Hlt. assert (L : Nat.log2 (j + 1) = S (Nat.log2 (i + 1))).
        { assert (j + 1 = 2 * (i + 1) \/ j + 1 = 2 * (i + 1) + 1) as [->| ->] by lia; [rewrite Nat.log2_double by lia|rewrite Nat.log2_succ_double by lia]; reflexivity. }
        pose proof (Nat.log2_le_mono (j + 1) sz ltac:(lia)) as L2. destruct (nth_error els j) as [cv|]; [|cbn [length]; lia]. cbn [length].
        destruct (c cv v <=? 0)%Z; [|cbn [length]; lia]. destruct (HeapModel.set_at els i cv) as [els'|]; [|cbn [length]; lia]. specialize (IH els' j Hlt). lia. }
      destruct (Nat.ltb_spec (2 * i + 2) sz) as [H2|H2].
      + destruct (nth_error els (2 * i + 1)) as [e1|]; [|cbn [length]; lia]. destruct (nth_error els (2 * i + 2)) as [e2|]; [|cbn [length]; lia].
        cbn [length]. destruct (c e1 e2 <? 0)%Z; [specialize (G (2 * i + 1) ltac:(lia) ltac:(lia))|specialize (G (2 * i + 2) ltac:(lia) ltac:(lia))]; lia.
      + destruct (Nat.leb_spec sz (2 * i + 1)); [cbn [length]; lia|]. specialize (G (2 * i + 1) ltac:(lia) ltac:(lia)). lia.
  Qed.
  (** In a heap of n elements Put asks the comparator at most log2 (n+1) times, Pop at most 2 log2 (n-1) times, the others
      never: in any heap, for any comparator. *)
  Theorem C68_heap_comparisons h o :
    length (heap_calls zero c h o) <= match o with HPut _ => Nat.log2 (HeapModel.size h + 1) | HPop => 2 * Nat.log2 (HeapModel.size h - 1) | _ => 0 end.
  Proof.
    destruct o; cbn [heap_calls length]; try lia.
    - cbv zeta. rewrite up_len. assert (E1 : HeapModel.size (HeapModel.grow zero h) = HeapModel.size h) by (unfold HeapModel.grow; destruct (_ <=? _); reflexivity). rewrite E1. lia.
    - destruct (Nat.eqb_spec (HeapModel.size h) 0); [cbn; lia|]. cbv zeta. set (h1 := HeapModel.slimming _).
      assert (E1 : HeapModel.size h1 = HeapModel.size h - 1) by (unfold h1, HeapModel.slimming; destruct (32 <=? _); [destruct (_ <=? _)|]; reflexivity).
      destruct (nth_error _ _) as [dv|]; [|cbn; lia]. destruct (Nat.eqb_spec (HeapModel.size h1) 0); [cbn; lia|].
      pose proof (down_len dv (HeapModel.size h1) (S (HeapModel.size h1)) (HeapModel.elements h1) 0 ltac:(lia)) as D. cbn [Nat.add] in D. rewrite Nat.log2_1 in D. rewrite E1 in *. lia.
  Qed.
End Heap.
Print Assumptions C68_avl_calls_complete.
Print Assumptions C68_avl_comparisons.
Print Assumptions C68_treeset_comparisons.
Print Assumptions C68_avls_calls_complete.
Print Assumptions C68_avls_comparisons.
Print Assumptions C68_heap_calls_complete.
Print Assumptions C68_heap_comparisons.

(** ** examples *)
Notation ten := (AvlProps.puts [1; 2; 3; 4; 5; 6; 7; 8; 9; 10]).
Example C68_avl_case : exists s, reach (step any_ex Both 2) new ten = Some s /\ size s = 10%nat /\
  avl_calls any_ex s (MRemove 10) = [(4, 10); (8, 10); (9, 10); (10, 10)] /\
  avl_calls any_ex s (MUpsert 11 tt) = [(4, 11); (8, 11); (9, 11); (10, 11); (4, 11); (8, 11); (9, 11); (10, 11)] /\
  avl_calls any_ex s (MUpsert 4 tt) = [(4, 4)] /\ looks (MUpsert 11 tt) * (2 * Z.log2 11 + 1) = 14.
Proof. eexists. split; [vm_compute; reflexivity|]. vm_compute. repeat split. Qed.
Example C68_avls_case : exists s, reach (mstep any_ex 2) new (AvlProps.puts [5; 5; 5; 3; 7; 5; 5]) = Some s /\ size s = 7%nat /\
  avls_calls any_ex s (MGet 5) = [(5, 5); (5, 5); (3, 5)] /\ avls_calls any_ex s (MSet 6 tt) = [(5, 6); (5, 6); (7, 6); (5, 6); (5, 6); (5, 6); (7, 6); (5, 6)].
Proof. eexists. split; [vm_compute; reflexivity|]. vm_compute. repeat split. Qed.
(** a comparator that is wrong about every other pair makes no difference to Remove 10 *)
Definition any_ex' (a b : Z) : Z := if b =? 10 then any_ex a b else 7.
Example C68_complete_case : exists s, reach (step any_ex Both 2) new ten = Some s /\ same_answers any_ex any_ex' (avl_calls any_ex s (MRemove 10)) /\
  any_ex' 4 9 <> any_ex 4 9 /\ step any_ex' Both 2 s (MRemove 10) = step any_ex Both 2 s (MRemove 10).
Proof.
  eexists. split; [vm_compute; reflexivity|]. split; [|split; vm_compute; [discriminate|reflexivity]].
  intros a b Hi. vm_compute in Hi. repeat destruct Hi as [Hi|Hi]; try (injection Hi as <- <-; reflexivity). destruct Hi.
Qed.
Example C68_heap_case : exists h, reach (HeapModel.step 0 any) (HeapModel.new 0) (map HPut [5; 3; 9; 3; 1]) = Some h /\
  HeapModel.elements h = [1; 3; 9; 5; 3; 0; 0; 0; 0; 0; 0; 0; 0; 0; 0; 0] /\
  heap_calls 0 any h (HPut 2) = [(2, 9); (2, 1)] /\ heap_calls 0 any h HPop = [(3, 9); (3, 3); (5, 3)].
Proof. eexists. split; [vm_compute; reflexivity|]. vm_compute. repeat split. Qed.
