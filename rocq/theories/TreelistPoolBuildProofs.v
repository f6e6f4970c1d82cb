(** tree/treelist: a set operation on nodes does what that of TreelistSetModel.v does. *)
From Verif Require Import Base Bind Machine OrderSpec SMapSpec SMapFacts CompareModel AvlTree AvlSpec IndexSpec IndexPoolSpec
  TreelistSpec TreelistModel TreelistLinks TreelistProofs TreelistSteps IndexModel
  IndexHeapModel IndexHeapProofs TreelistPoolSpec TreelistHeapModel TreelistHeapProofs TreelistHeapStepProofs TreelistPoolModel.
From Verif Require TreelistSetModel TreelistSetProofs.
Local Open Scope Z_scope.

Section Build.
  Context {K V : Type} (cmp : K -> K -> Z) (zero : K) (zeroV : V).
  Notation tmem := (tmem K V).
  Notation tls := (TreelistModel.tl K V).

  Definition conv (op : lset) : TreelistSetModel.set_op :=
    match op with LIntersection => TreelistSetModel.Intersection | LUnion => TreelistSetModel.Union | LDifference => TreelistSetModel.Difference end.
  Definition hds (h : option nat * option nat) : heads := Heads (addr (fst h)) (addr (snd h)).
  Definition out_at (x : bool * nat) : bool * nat := (fst x, S (snd x)).

  (** ** Reading *)
  Section Read.
  Context (op : lset) (m1 m2 : tmem) (s1 s2 : tls) (T1 : trep m1 s1) (T2 : trep m2 s2).

  Lemma slice_at (m : tmem) (s : tls) x kv : trep m s -> TreelistModel.slice x (TreelistModel.top s) = Some kv -> sliceAt m (S x) = kv.
  Proof.
    intros [(t & O & Hv) _ _] H. rewrite <- Hv in H. symmetry. exact (slice_view x (base m) t kv (root_zero _ _ O) H).
  Qed.
  Lemma dir_at (m : tmem) (s : tls) x b : trep m s -> Direct m (S x) b = addr (d (lks s) x b).
  Proof. intros [_ (H & _) _]. apply H. Qed.
  Lemma emit_at x1 x2 c : emit op m1 m2 (S x1) (S x2) c =
    (hds (fst (TreelistSetModel.emit (conv op) s1 s2 x1 x2 c)), option_map out_at (snd (TreelistSetModel.emit (conv op) s1 s2 x1 x2 c))).
  Proof.
    unfold emit, TreelistSetModel.emit. rewrite (dir_at m1 s1 x1 true T1), (dir_at m2 s2 x2 true T2).
    destruct op; cbn [conv]; destruct (c <? 0); try destruct (c >? 0); reflexivity.
  Qed.
  Lemma compare_at x1 x2 c : TreelistSetModel.compareAt cmp s1 s2 x1 x2 = Some c -> cmp (Key (base m1) (S x1)) (Key (base m2) (S x2)) = c.
  Proof.
    unfold TreelistSetModel.compareAt. destruct (TreelistModel.slice x1 (TreelistModel.top s1)) as [(k1, v1)|] eqn:E1; [|discriminate].
    destruct (TreelistModel.slice x2 (TreelistModel.top s2)) as [(k2, v2)|] eqn:E2; [|discriminate]. intros H. injection H as <-.
    pose proof (slice_at m1 s1 x1 _ T1 E1) as H1. pose proof (slice_at m2 s2 x2 _ T2 E2) as H2. unfold sliceAt in *. congruence.
  Qed.

  Lemma rest_at (m : tmem) (s : tls) n : forall n' h c z, trep m s -> (n <= n')%nat -> TreelistSetModel.countRest n s h c = Some z -> countRest n' m (addr h) c = Some z.
  Proof.
    induction n as [|n IH]; intros n' h c z Ht Hn H; (destruct h as [x|]; [|destruct n'; exact H]); [discriminate|].
    destruct n' as [|n']; [lia|]. cbn [countRest addr option_map TreelistSetModel.countRest] in *. rewrite (dir_at m s x true Ht). apply IH; [exact Ht|lia|exact H].
  Qed.
  Lemma count_at n : forall n' h c z, (n <= n')%nat -> TreelistSetModel.countLoop cmp n (conv op) s1 s2 h c = Some z -> countLoop cmp op m1 m2 n' (hds h) c = Some z.
  Proof.
    assert (E : forall n n' x y c z, (n <= n')%nat ->
      match conv op with
      | TreelistSetModel.Intersection => Some c
      | TreelistSetModel.Union => match TreelistSetModel.countRest n s1 x c with Some c => TreelistSetModel.countRest n s2 y c | None => None end
      | TreelistSetModel.Difference => TreelistSetModel.countRest n s1 x c
      end = Some z ->
      match op with
      | LIntersection => Some c
      | LUnion => match countRest n' m1 (addr x) c with Some c => countRest n' m2 (addr y) c | None => None end
      | LDifference => countRest n' m1 (addr x) c
      end = Some z).
    { intros k k' x y c z Hk. destruct op; cbn [conv]; [auto| |apply rest_at; auto].
      destruct (TreelistSetModel.countRest k s1 x c) as [c1|] eqn:E1; [|discriminate]. rewrite (rest_at m1 s1 k k' x c c1 T1 Hk E1). apply rest_at; auto. }
    induction n as [|n IH]; intros n' [x y] c z Hn He.
    - specialize (E 0%nat n' x y c z Hn). destruct x as [x|], y as [y|]; [discriminate|..]; destruct n'; exact (E He).
    - destruct n' as [|n']; [lia|]. specialize (E (S n) (S n') x y c z Hn). destruct x as [x|], y as [y|]; [|exact (E He)..].
      cbn [TreelistSetModel.countLoop] in He. destruct (TreelistSetModel.compareAt cmp s1 s2 x y) as [w|] eqn:Ew; [|discriminate].
      cbn [countLoop hds head1 head2 fst snd addr option_map]. rewrite (compare_at x y w Ew), emit_at. destruct (TreelistSetModel.emit (conv op) s1 s2 x y w) as (h, out). cbn [fst snd].
      apply IH; [lia|]. destruct out; exact He.
  Qed.
  Lemma next_at n : forall n' h h' kv, (n <= n')%nat -> TreelistSetModel.next cmp n (conv op) s1 s2 h = Some (h', kv) ->
    nextSlice cmp op m1 m2 n' (hds h) = Some (Some (hds h', kv)).
  Proof.
    assert (E : forall x y h' kv,
      match conv op, x, y with
      | TreelistSetModel.Union, Some a, _ | TreelistSetModel.Difference, Some a, _ => kv <- TreelistModel.slice a (TreelistModel.top s1) ;; Some ((d (lks s1) a true, y), kv)
      | TreelistSetModel.Union, None, Some a => kv <- TreelistModel.slice a (TreelistModel.top s2) ;; Some ((x, d (lks s2) a true), kv)
      | _, _, _ => None
      end = Some (h', kv) ->
      match op, addr x, addr y with
      | LUnion, Some a, _ | LDifference, Some a, _ => Some (Some (Heads (Direct m1 a true) (addr y), sliceAt m1 a))
      | LUnion, None, Some a => Some (Some (Heads (addr x) (Direct m2 a true), sliceAt m2 a))
      | _, _, _ => Some None
      end = Some (Some (hds h', kv))).
    { intros x y h' kv. destruct op; cbn [conv]; [discriminate| |].
      - destruct x as [x|]; [|destruct y as [y|]; [|discriminate]].
        + destruct (TreelistModel.slice x (TreelistModel.top s1)) as [e0|] eqn:Es; [|discriminate]. intros H. injection H as <- <-. cbn [addr option_map]. rewrite (slice_at m1 s1 x e0 T1 Es), (dir_at m1 s1 x true T1). reflexivity.
        + destruct (TreelistModel.slice y (TreelistModel.top s2)) as [e0|] eqn:Es; [|discriminate]. intros H. injection H as <- <-. cbn [addr option_map]. rewrite (slice_at m2 s2 y e0 T2 Es), (dir_at m2 s2 y true T2). reflexivity.
      - destruct x as [x|]; [|discriminate]. destruct (TreelistModel.slice x (TreelistModel.top s1)) as [e0|] eqn:Es; [|discriminate]. intros H. injection H as <- <-. cbn [addr option_map].
        rewrite (slice_at m1 s1 x e0 T1 Es), (dir_at m1 s1 x true T1). reflexivity. }
    induction n as [|n IH]; intros n' [x y] h' kv Hn He.
    - specialize (E x y h' kv). destruct x as [x|], y as [y|]; [discriminate|..]; destruct n'; exact (E He).
    - destruct n' as [|n']; [lia|]. specialize (E x y h' kv). destruct x as [x|], y as [y|]; [|exact (E He)..].
      cbn [TreelistSetModel.next] in He. destruct (TreelistSetModel.compareAt cmp s1 s2 x y) as [w|] eqn:Ew; [|discriminate].
      cbn [nextSlice hds head1 head2 fst snd addr option_map]. rewrite (compare_at x y w Ew), emit_at. destruct (TreelistSetModel.emit (conv op) s1 s2 x y w) as (h, out). cbn [fst snd].
      destruct out as [([], z)|]; cbn [option_map out_at fst snd].
      + destruct (TreelistModel.slice z (TreelistModel.top s2)) as [e0|] eqn:Es; [|discriminate]. injection He as <- <-. rewrite (slice_at m2 s2 z e0 T2 Es). reflexivity.
      + destruct (TreelistModel.slice z (TreelistModel.top s1)) as [e0|] eqn:Es; [|discriminate]. injection He as <- <-. rewrite (slice_at m1 s1 z e0 T1 Es). reflexivity.
      + apply IH; [lia|exact He].
  Qed.
  End Read.

  (** ** Building *)
  Definition old (b b' : mem K V) (n : nat) : Prop := forall a, (a < n)%nat ->
    Parent b' a = Parent b a /\ (forall d, Children b' a d = Children b a d) /\ Size b' a = Size b a /\ Key b' a = Key b a /\ Value b' a = Value b a.
  Lemma old_refl b n : old b b n.
  Proof. intros a _. auto 10. Qed.
  Lemma old_trans b b1 b2 n n' : (n <= n')%nat -> old b b1 n -> old b1 b2 n' -> old b b2 n.
  Proof.
    intros Hn H1 H2 a Ha. destruct (H1 a Ha) as (A1 & A2 & A3 & A4 & A5). destruct (H2 a) as (B1 & B2 & B3 & B4 & B5); [lia|].
    split; [congruence|]. split; [intros d; rewrite B2; apply A2|]. split; [congruence|]. split; congruence.
  Qed.
  Lemma old_links b b' n l : (forall a, In a l -> (a < n)%nat) -> old b b' n -> links b b' l.
  Proof. intros Hl H a Ha. destruct (H a (Hl a Ha)) as (H1 & H2 & _). auto. Qed.
  Lemma old_data b b' n l : (forall a, In a l -> (a < n)%nat) -> old b b' n -> data (tagged b) (tagged b') l.
  Proof.
    intros Hl H a Ha. destruct (H a (Hl a Ha)) as (_ & _ & H3 & H4 & H5). split; [exact H3|]. split; [exact H4|].
    change ((pred a, Value b' a) = (pred a, Value b a)). congruence.
  Qed.
  (** [b'] differs from [b] at [n] and beyond only *)
  Ltac upd_old := intros ? ?; cbn [setKid setKey setValue setSize setBalance Parent Children Size Key Value]; rewrite ?upd_ne by lia; auto 10.

  Record at_ (m : tmem) (st : TreelistSetModel.building) : Prop := {
    a_next : next (base m) = S (TreelistSetModel.bfresh st);
    a_dirs : dirs (Direct m) (TreelistSetModel.blks st);
    a_open : forall i b, (TreelistSetModel.bfresh st <= i)%nat -> d (TreelistSetModel.blks st) i b = None;
    a_prev : forall q, TreelistSetModel.prev st = Some q -> (q < TreelistSetModel.bfresh st)%nat }.

  Section Run.
  Context (op : lset) (m1 m2 : tmem) (s1 s2 : tls) (T1 : trep m1 s1) (T2 : trep m2 s2) (fuel : nat) (Hfuel : (fuel <= fuel2 m1 m2)%nat).

  Lemma chain_at m st x : at_ m st -> (x < TreelistSetModel.bfresh st)%nat ->
    exists dir, chain 0 (addr (TreelistSetModel.prev st)) (Some (S x)) m = Done tt (TMem (base m) dir) /\ at_ (TMem (base m) dir) (TreelistSetModel.chain x st).
  Proof.
    intros [H1 H2 H3 H4] Hx. unfold chain, TreelistSetModel.chain. rewrite nil_addr. destruct (TreelistSetModel.prev st) as [p|] eqn:Ep; cbn [negb].
    - destruct (wrDir_node m _ p true (Some x) H2) as (dir1 & R1 & D1). destruct (wrDir_node (TMem (base m) dir1) _ x false (Some p) D1) as (dir2 & R2 & D2).
      exists dir2. split; [erewrite run_tbind by exact R1; exact R2|]. specialize (H4 p eq_refl). constructor; cbn [base Direct TreelistSetModel.blks TreelistSetModel.bfresh TreelistSetModel.prev].
      + exact H1.
      + exact D2.
      + intros i b Hi. cbn [setd d]. destruct (Nat.eqb_spec i x) as [->|_]; [lia|]. destruct (Nat.eqb_spec i p) as [->|_]; [lia|]. cbn [andb]. apply H3, Hi.
      + intros q Hq. injection Hq as <-. exact Hx.
    - destruct (wrDir_root m _ false (Some x) H2) as (dir1 & R1 & D1). exists dir1. split; [exact R1|]. constructor; cbn [base Direct TreelistSetModel.blks TreelistSetModel.bfresh TreelistSetModel.prev].
      + exact H1.
      + exact D1.
      + intros i b Hi. cbn [sete d]. apply H3, Hi.
      + intros q Hq. injection Hq as <-. exact Hx.
  Qed.

  Lemma build_at n : forall size st m p t st', at_ m st -> TreelistSetModel.build cmp n fuel (conv op) s1 s2 size st = Some (t, st') ->
    exists x m', build cmp zero zeroV op (fun _ => (m1, m2)) 0 n size (Some p) (addr (TreelistSetModel.prev st)) (hds (TreelistSetModel.bheads st)) m =
      Done (pt x, (addr (TreelistSetModel.prev st'), hds (TreelistSetModel.bheads st'))) m' /\
      at_ m' st' /\ view (tagged (base m')) x = t /\ body (base m') x /\ hangs (base m') p x /\ NoDup (addrs x) /\
      (forall a, In a (addrs x) -> (next (base m) <= a < next (base m'))%nat) /\ old (base m) (base m') (next (base m)) /\ (next (base m) <= next (base m'))%nat.
  Proof.
    assert (E0 : forall st m p, at_ m st -> exists x m', pure (None, (addr (TreelistSetModel.prev st), hds (TreelistSetModel.bheads st))) m =
      Done (pt x, (addr (TreelistSetModel.prev st), hds (TreelistSetModel.bheads st))) m' /\
      at_ m' st /\ view (tagged (base m')) x = E /\ body (base m') x /\ hangs (base m') p x /\ NoDup (addrs x) /\
      (forall a, In a (addrs x) -> (next (base m) <= a < next (base m'))%nat) /\ old (base m) (base m') (next (base m)) /\ (next (base m) <= next (base m'))%nat).
    { intros st m p Ha. exists L, m. split; [reflexivity|]. split; [exact Ha|]. split; [reflexivity|]. split; [exact I|]. split; [exact I|].
      split; [constructor|]. split; [intros a []|]. split; [apply old_refl|lia]. }
    induction n as [|n IH]; intros size st m p t st' Ha He; cbn [TreelistSetModel.build build] in *; (destruct (size =? 0); [injection He as <- <-; apply E0, Ha|]); [discriminate|].
    cbv zeta in *. set (ls := Z.quot size 2) in *. set (rs := size - ls - 1) in *. set (x := TreelistSetModel.bfresh st) in *.
    destruct (TreelistSetModel.build cmp n fuel (conv op) s1 s2 ls (TreelistSetModel.B (TreelistSetModel.prev st) (TreelistSetModel.blks st) (S x) (TreelistSetModel.bheads st))) as [(l, st1)|] eqn:El; [|discriminate].
    destruct (TreelistSetModel.next cmp fuel (conv op) s1 s2 (TreelistSetModel.bheads st1)) as [(h, (k, v))|] eqn:En; [|discriminate].
    set (st2 := TreelistSetModel.chain x (TreelistSetModel.B (TreelistSetModel.prev st1) (TreelistSetModel.blks st1) (TreelistSetModel.bfresh st1) h)) in *.
    destruct (TreelistSetModel.build cmp n fuel (conv op) s1 s2 rs st2) as [(r, st3)|] eqn:Er; [|discriminate]. injection He as <- <-.
    pose proof Ha as [A1 A2 A3 A4]. fold x in A1, A3, A4. set (a := S x).
    (* the new node *)
    set (ma := TMem (Mem (upd (Parent (base m)) a (Some p)) (upd (Children (base m)) a (fun _ => None)) (upd (Size (base m)) a 0) (upd (Balance (base m)) a 0)
      (upd (Key (base m)) a zero) (upd (Value (base m)) a zeroV) (S a)) (upd (Direct m) a (fun _ => None))).
    assert (Ra : talloc (Some p) 0 zero zeroV m = Done (Some a) ma) by (unfold talloc, alloc; rewrite A1; reflexivity). erewrite run_tbind by exact Ra.
    assert (Aa : at_ ma (TreelistSetModel.B (TreelistSetModel.prev st) (TreelistSetModel.blks st) (S x) (TreelistSetModel.bheads st))).
    { constructor; cbn [base Direct next ma TreelistSetModel.prev TreelistSetModel.blks TreelistSetModel.bfresh].
      - reflexivity.
      - destruct A2 as (D1 & D2). split; [|exact D2]. intros i b. unfold upd, a. cbn [Nat.eqb]. destruct (Nat.eqb_spec i x) as [->|_]; [rewrite A3 by lia; reflexivity|apply D1].
      - intros i b Hi. apply A3. lia.
      - intros q Hq. specialize (A4 q Hq). lia. }
    assert (Oa : old (base m) (base ma) (next (base m))) by (rewrite A1; fold a; intros c Hc; cbn [ma base Parent Children Size Key Value]; rewrite !upd_ne by lia; auto 10).
    (* the left side *)
    destruct (IH ls _ ma a l st1 Aa El) as (xl & mb & Rb & Ab & Vb & Bb & Hb & Nb & Ib & Ob & Lb). cbn [TreelistSetModel.prev TreelistSetModel.bheads] in Rb.
    erewrite run_tbind by exact Rb. cbn [fst snd]. change (next (base ma)) with (S a) in *.
    set (bc := setKid false (pt xl) a (base mb)). set (mc := TMem bc (Direct mb)).
    assert (Rc : lift (wr (setKid false (pt xl)) (Some a)) mb = Done tt mc) by reflexivity. erewrite run_tbind by exact Rc.
    assert (Rn : getNext cmp op (fun _ => (m1, m2)) (hds (TreelistSetModel.bheads st1)) mc = Done (hds h, (k, v)) mc).
    { unfold getNext. rewrite (next_at op m1 m2 s1 s2 T1 T2 fuel _ _ _ _ Hfuel En). reflexivity. }
    erewrite run_tbind by exact Rn. cbn [fst snd]. clear Rn.
    set (bd := setValue v a (setKey k a bc)). set (md := TMem bd (Direct mb)).
    assert (Rd1 : lift (wr (setKey k) (Some a)) mc = Done tt (TMem (setKey k a bc) (Direct mb))) by reflexivity. erewrite run_tbind by exact Rd1.
    assert (Rd2 : lift (wr (setValue v) (Some a)) (TMem (setKey k a bc) (Direct mb)) = Done tt md) by reflexivity. erewrite run_tbind by exact Rd2. clear Rd1 Rd2.
    pose proof (a_next _ _ Ab) as Nn.
    assert (Ad : at_ md (TreelistSetModel.B (TreelistSetModel.prev st1) (TreelistSetModel.blks st1) (TreelistSetModel.bfresh st1) h)) by (destruct Ab as [Z1 Z2 Z3 Z4]; constructor; assumption).
    destruct (chain_at md _ x Ad) as (dir & Re & Ae); [cbn [TreelistSetModel.bfresh]; unfold a in *; lia|]. fold st2 in Ae. cbn [TreelistSetModel.prev] in Re.
    fold a in Re. erewrite run_tbind by exact Re. set (me := TMem (base md) dir) in *.
    (* the right side *)
    destruct (IH rs st2 me a r st3 Ae Er) as (xr & mf & Rf & Af & Vf & Bf & Hf & Nf & If & Of & Lf).
    change (addr (TreelistSetModel.prev st2)) with (Some a) in Rf. change (hds (TreelistSetModel.bheads st2)) with (hds h) in Rf.
    erewrite run_tbind by exact Rf. cbn [fst snd]. change (next (base me)) with (next (base mb)) in *.
    set (bg := setKid true (pt xr) a (base mf)). 
    assert (Rg : lift (wr (setKid true (pt xr)) (Some a)) mf = Done tt (TMem bg (Direct mf))) by reflexivity. erewrite run_tbind by exact Rg.
    assert (Oaf : old (base me) (base mf) (S a)) by (intros c Hc; apply Of; lia).
    assert (K1 : Children bg a false = pt xl).
    { unfold bg. cbn [setKid Children]. rewrite upd_eq. cbn [Bool.eqb]. destruct (Oaf a) as (_ & Hk & _); [lia|]. rewrite Hk. unfold me, md. cbn [base]. unfold bd, bc. cbn [setKid setKey setValue Children]. rewrite upd_eq. reflexivity. }
    assert (K2 : Children bg a true = pt xr) by (unfold bg; cbn [setKid Children]; rewrite upd_eq; reflexivity).
    set (sz0 := gs bg xl + gs bg xr + 1). set (bh := setSize sz0 a bg).
    assert (Rh : lift (sumSize (Some a)) (TMem bg (Direct mf)) = Done tt (TMem bh (Direct mf))) by exact (lift_ok _ (TMem bg (Direct mf)) _ _ (sumSize_ok bg a false xl xr K1 K2)).
    erewrite run_tbind by exact Rh. 
    set (bi := setBalance (gs bh xl - gs bh xr) a bh). set (mi := TMem bi (Direct mf)).
    assert (Ri : lift (updateBalance (Some a)) (TMem bh (Direct mf)) = Done tt mi) by exact (lift_ok _ (TMem bh (Direct mf)) _ _ (updateBalance_ok bh a false xl xr K1 K2)).
    erewrite run_tbind by exact Ri. exists (B a xl xr), mi. split; [reflexivity|].
    (* nodes of the two sides *)
    assert (Il : forall c, In c (addrs xl) -> (S a <= c < next (base mb))%nat) by exact Ib.
    assert (Ir : forall c, In c (addrs xr) -> (next (base mb) <= c < next (base mf))%nat) by exact If.
    assert (Obe : forall c, (c <> a)%nat -> (c < next (base mb))%nat -> Parent bi c = Parent (base mb) c /\ (forall d, Children bi c d = Children (base mb) c d) /\ Size bi c = Size (base mb) c /\ Key bi c = Key (base mb) c /\ Value bi c = Value (base mb) c).
    { intros c Hc Hl. destruct (Of c Hl) as (Z1 & Z2 & Z3 & Z4 & Z5). unfold bi, bh, bg. cbn [setKid setSize setBalance Parent Children Size Key Value]. rewrite !upd_ne by exact Hc. rewrite Z1, Z3, Z4, Z5.
      unfold me, md, bd, bc. cbn [base setKid setKey setValue Parent Children Size Key Value]. rewrite !upd_ne by exact Hc.
      split; [reflexivity|]. split; [|auto]. intros d0. rewrite Z2. unfold me, md, bd, bc. cbn [base setKid setKey setValue Parent Children Size Key Value]. rewrite !upd_ne by exact Hc. reflexivity. }
    assert (Off : forall c, (c <> a)%nat -> Parent bi c = Parent (base mf) c /\ (forall d, Children bi c d = Children (base mf) c d) /\ Size bi c = Size (base mf) c /\ Key bi c = Key (base mf) c /\ Value bi c = Value (base mf) c).
    { intros c Hc. unfold bi, bh, bg. cbn [setKid setSize setBalance Parent Children Size Key Value]. rewrite !upd_ne by exact Hc. auto 10. }
    assert (Ll : links (base mb) bi (addrs xl)). { intros c Hc. specialize (Il c Hc). destruct (Obe c) as (Z1 & Z2 & _); [lia|lia|]. auto. }
    assert (Lr : links (base mf) bi (addrs xr)). { intros c Hc. specialize (Ir c Hc). destruct (Off c) as (Z1 & Z2 & _); [lia|]. auto. }
    assert (Dl : data (tagged (base mb)) (tagged bi) (addrs xl)).
    { intros c Hc. specialize (Il c Hc). destruct (Obe c) as (_ & _ & Z3 & Z4 & Z5); [lia|lia|]. split; [exact Z3|]. split; [exact Z4|]. change ((pred c, Value bi c) = (pred c, Value (base mb) c)). congruence. }
    assert (Dr : data (tagged (base mf)) (tagged bi) (addrs xr)).
    { intros c Hc. specialize (Ir c Hc). destruct (Off c) as (_ & _ & Z3 & Z4 & Z5); [lia|]. split; [exact Z3|]. split; [exact Z4|]. change ((pred c, Value bi c) = (pred c, Value (base mf) c)). congruence. }
    split; [|split; [|split; [|split; [|split; [|split; [|split]]]]]].
    - destruct Af as [Z1 Z2 Z3 Z4]. constructor; [exact Z1|exact Z2|exact Z3|exact Z4].
    - cbn [view base mi]. rewrite (view_keep _ _ _ Dl), (view_keep _ _ _ Dr), Vb, Vf. unfold TreelistModel.sum, IndexModel.sum.
      change (Size (tagged bi) a) with (Size bi a). change (Key (tagged bi) a) with (Key bi a). change (Value (tagged bi) a) with (x, Value bi a).
      destruct (Oaf a) as (_ & _ & _ & Z4 & Z5); [lia|].
      assert (Hk : Key bi a = k) by (unfold bi, bh, bg; cbn [setKid setSize setBalance Key]; rewrite Z4; unfold me, md, bd; cbn [base setKey setValue Key]; apply upd_eq).
      assert (Hv : Value bi a = v) by (unfold bi, bh, bg; cbn [setKid setSize setBalance Value]; rewrite Z5; unfold me, md, bd; cbn [base setKey setValue Value]; apply upd_eq).
      rewrite Hk, Hv. f_equal. unfold bi, bh. cbn [setSize setBalance Size]. rewrite upd_eq. unfold sz0.
      assert (G : forall (b : mem K V) y, IndexModel.getSize (view (tagged b) y) = gs b y) by (intros b []; reflexivity).
      rewrite <- Vb, <- Vf, !G. f_equal. f_equal.
      + destruct xl as [|c ? ?]; [reflexivity|]. specialize (Il c (or_introl eq_refl)). destruct (Obe c) as (_ & _ & Z & _); [lia|lia|]. unfold gs. cbn [view IndexModel.getSize]. rewrite <- Z.
        unfold bi, bh. cbn [setSize setBalance Size]. rewrite upd_ne by lia. reflexivity.
      + destruct xr as [|c ? ?]; [reflexivity|]. reflexivity.
    - cbn [body base mi]. split; [exact K1|]. split; [exact K2|]. split; [exact (hangs_keep _ _ _ _ Ll Hb)|]. split; [exact (hangs_keep _ _ _ _ Lr Hf)|].
      split; [exact (body_keep _ _ _ Ll Bb)|exact (body_keep _ _ _ Lr Bf)].
    - cbn [hangs base mi]. unfold bi, bh, bg. cbn [setKid setSize setBalance Parent]. destruct (Oaf a) as (Z1 & _); [lia|]. rewrite Z1.
      unfold me, md, bd, bc. cbn [base setKid setKey setValue Parent]. destruct (Ob a) as (Z1' & _); [lia|]. rewrite Z1'. cbn [ma base Parent]. apply upd_eq.
    - cbn [addrs]. constructor.
      + intros X. apply in_app_or in X as [X|X]; [specialize (Il a X); lia|specialize (Ir a X); lia].
      + apply nodup_app. split; [exact Nb|]. split; [exact Nf|]. intros c X Y. specialize (Il c X). specialize (Ir c Y). lia.
    - cbn [addrs base mi]. change (next bi) with (next (base mf)). rewrite A1. fold a. intros c [<-|X]; [lia|]. apply in_app_or in X as [X|X]; [specialize (Il c X); lia|specialize (Ir c X); lia].
    - cbn [base mi]. rewrite A1 in *. fold a in Oa |- *. apply (old_trans _ (base ma) _ a a (le_n _) Oa). intros c Hc.
      destruct (Obe c) as (Z1 & Z2 & Z3 & Z4 & Z5); [lia|lia|]. destruct (Ob c) as (Y1 & Y2 & Y3 & Y4 & Y5); [lia|].
      split; [congruence|]. split; [intros d0; rewrite Z2; apply Y2|]. split; [congruence|]. split; congruence.
    - cbn [base mi]. change (next bi) with (next (base mf)). lia.
  Qed.
  End Run.

  Lemma set_at op (m1 m2 : tmem) (s1 s2 s : tls) : trep m1 s1 -> trep m2 s2 ->
    (length (elems (TreelistModel.top s1)) <= fresh s1)%nat -> (length (elems (TreelistModel.top s2)) <= fresh s2)%nat ->
    TreelistSetModel.setOperation cmp (conv op) s1 s2 = Some s ->
    exists m', setOperation cmp zero zeroV op (fun _ => (m1, m2)) 0 0 (tblank zero zeroV) = Done (Some 0%nat) m' /\ trep m' s.
  Proof.
    intros T1 T2 F1 F2 He. unfold TreelistSetModel.setOperation in He. set (fuel := S _) in He.
    assert (Hfuel : (fuel <= fuel2 m1 m2)%nat) by (unfold fuel, fuel2; rewrite (tr_next _ _ T1), (tr_next _ _ T2); lia).
    set (h := (e (lks s1) false, e (lks s2) false)) in He.
    destruct (TreelistSetModel.countLoop cmp fuel (conv op) s1 s2 h 0) as [count|] eqn:Ec; [|discriminate].
    pose proof (count_at op m1 m2 s1 s2 T1 T2 fuel _ _ _ _ Hfuel Ec) as Hc.
    assert (Hh : Heads (Direct m1 0%nat false) (Direct m2 0%nat false) = hds h).
    { unfold h, hds. cbn [fst snd]. rewrite (proj2 (tr_dirs _ _ T1)), (proj2 (tr_dirs _ _ T2)). reflexivity. }
    unfold setOperation. destruct (newList zero zeroV (tblank zero zeroV)) as [q m| |] eqn:En; try discriminate. unfold newList, talloc in En. cbn in En.
    injection En as <- Em. erewrite run_tbind by (unfold newList, talloc; cbn; rewrite Em; reflexivity). rewrite Hh, Hc. unfold buildFrom.
    (* the new list, cleared *)
    assert (Hm : exists m0, Clear 0 m = Done tt m0 /\ next (base m0) = 1%nat /\ (forall a b, Direct m0 a b = None) /\ Children (base m0) 0%nat false = None /\ Children (base m0) 0%nat true = None).
    { eexists. split; [reflexivity|]. subst m. split; [reflexivity|]. split; [|split; reflexivity].
      intros a b. cbn [setDir Direct base]. unfold upd. destruct (Nat.eqb a 0); destruct b; reflexivity. }
    destruct Hm as (m0 & Rm & N0 & D0 & C0 & C1).
    destruct (count =? 0).
    { injection He as <-. exists m0. split; [unfold tbind in *; rewrite Rm; reflexivity|]. constructor.
      - exists L. split; [|reflexivity]. constructor; cbn [cok pt hangs body caddrs addrs app]; [split; [exact C0|exact C1]|exact I|exact I|repeat constructor; intros []|].
        intros a [<-|[]]. change (0 < next (base m0))%nat. lia.
      - split; [intros i b; apply D0|intros b; apply D0].
      - exact N0. }
    destruct (TreelistSetModel.build cmp (Z.to_nat count) fuel (conv op) s1 s2 count (TreelistSetModel.B None (lks (@TreelistModel.new K V)) 0 h)) as [(t, st)|] eqn:Eb; [|discriminate].
    injection He as <-.
    assert (A0 : at_ m0 (TreelistSetModel.B None (lks (@TreelistModel.new K V)) 0 h)).
    { constructor; cbn; [exact N0|split; [intros i b; apply D0|intros b; apply D0]|reflexivity|discriminate]. }
    destruct (build_at op m1 m2 s1 s2 T1 T2 fuel Hfuel (Z.to_nat count) count _ m0 0%nat t st A0 Eb) as (x & m3 & R3 & A3 & V3 & B3 & H3 & N3 & I3 & O3 & L3).
    cbn [TreelistSetModel.prev TreelistSetModel.bheads addr option_map] in R3.
    set (b4 := setKid false (pt x) 0 (base m3)). set (m4 := TMem b4 (Direct m3)). set (m5 := setDir true (addr (TreelistSetModel.prev st)) 0 m4).
    exists m5. split.
    { unfold tbind in *. rewrite Rm, R3. reflexivity. }
    assert (Hx : forall a, In a (addrs x) -> (a <> 0)%nat) by (intros a Ha; specialize (I3 a Ha); lia).
    assert (Lk : links (base m3) b4 (addrs x)).
    { intros a Ha. unfold b4. cbn [setKid Parent Children]. split; [reflexivity|]. intros d0. rewrite upd_ne by (apply Hx, Ha). reflexivity. }
    constructor; cbn [m5 setDir base TreelistModel.top TreelistModel.lks TreelistModel.fresh].
    - exists x. split.
      + apply ok_withV. constructor; cbn [cok IndexHeapProofs.top caddrs app].
        * change (base m4) with b4. unfold b4. cbn [setKid Children]. rewrite upd_eq. cbn [Bool.eqb]. split; [reflexivity|]. destruct (O3 0%nat) as (_ & Hk & _); [lia|]. rewrite Hk. exact C1.
        * exact (hangs_keep _ _ _ _ Lk H3).
        * exact (body_keep _ _ _ Lk B3).
        * constructor; [intros X; apply (Hx _ X); reflexivity|exact N3].
        * change (next (base m4)) with (next (base m3)). intros a [<-|Ha]; [lia|]. apply I3, Ha.
      + rewrite <- V3. apply view_keep. intros a Ha. split; [reflexivity|]. split; reflexivity.
    - apply (dirs_root (Direct m4)). exact (a_dirs _ _ A3).
    - exact (a_next _ _ A3).
  Qed.
End Build.
