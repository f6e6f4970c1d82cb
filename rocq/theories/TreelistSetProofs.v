(** Tree lists: set operations. *)
From Verif Require Import Base Bind Machine OrderSpec SMapSpec SMapFacts AvlTree AvlSpec AvlModel AvlProofs AvlAny IndexSpec IndexModel IndexProofs
  TreelistSpec TreelistModel TreelistLinks TreelistProofs TreelistSteps TreelistSetModel.
Local Open Scope Z_scope.

Section Sets.
  Context {K V : Type} (ltb : K -> K -> bool) (W : weak_order ltb) (cmp : K -> K -> Z) (Hcmp : plain_cmp ltb cmp).
  Notation tls := (TreelistModel.tl K V).
  Notation entries := (list (K * V)).
  Notation linkedl lk l := (linked (d lk) (e lk) l).
  Implicit Types (m : entries).

  (** ** reading a thread *)
  Definition sees (s : tls) (h : option nat) m : Prop :=
    exists a b, linkedl (lks s) (a ++ b) /\ h = hd_error b /\ map (fun x => slice x (top s)) b = map Some m.
  Lemma sees_start st s m : TRel ltb st s m -> st = false -> sees s (e (lks s) false) m.
  Proof.
    intros (E1 & _ & _ & E2 & _ & E3 & _) Hs. specialize (E3 Hs). exists [], (ids (elems (top s))). cbn [app]. split; auto.
    split; [apply E3|]. rewrite <- E1. unfold pk, ids. rewrite !map_map. apply map_ext_in. intros [k [x v]] Hi. cbn [fst snd plainKV].
    apply slice_ok; auto.
  Qed.
  Lemma sees_none s m : sees s None m -> m = [].
  Proof. intros (a & [|x b] & _ & H1 & H2); [destruct m; [auto|discriminate]|discriminate]. Qed.
  Lemma sees_some s x m : sees s (Some x) m -> exists kv m', m = kv :: m' /\ slice x (top s) = Some kv /\ sees s (d (lks s) x true) m'.
  Proof.
    intros (a & [|y b] & H1 & H2 & H3); [discriminate|]. injection H2 as ->. destruct m as [|kv m]; [discriminate|].
    injection H3 as H3 H4. exists kv, m. split; auto. split; auto. exists (a ++ [y]), b. rewrite <- app_assoc. split; auto. split; auto.
    apply (linked_right (lks s) a y b H1).
  Qed.

  (** ** what comes out *)
  Definition rest (op : set_op) m1 m2 : entries :=
    match op with Intersection => [] | Union => m1 ++ m2 | Difference => m1 end.
  Fixpoint merge (op : set_op) m1 : entries -> entries :=
    fix inner m2 :=
      match m1, m2 with
      | x1 :: m1', x2 :: m2' =>
          if cmp (fst x1) (fst x2) <? 0 then match op with Intersection => merge op m1' m2 | _ => x1 :: merge op m1' m2 end
          else if cmp (fst x1) (fst x2) >? 0 then match op with Union => x2 :: inner m2' | _ => inner m2' end
          else match op with Difference => merge op m1' m2' | _ => x1 :: merge op m1' m2' end
      | _, _ => rest op m1 m2
      end.
  Lemma merge_cons op x1 m1 x2 m2 : merge op (x1 :: m1) (x2 :: m2) =
    if cmp (fst x1) (fst x2) <? 0 then match op with Intersection => merge op m1 (x2 :: m2) | _ => x1 :: merge op m1 (x2 :: m2) end
    else if cmp (fst x1) (fst x2) >? 0 then match op with Union => x2 :: merge op (x1 :: m1) m2 | _ => merge op (x1 :: m1) m2 end
    else match op with Difference => merge op m1 m2 | _ => x1 :: merge op m1 m2 end.
  Proof. reflexivity. Qed.
  Lemma merge_nil_l op m2 : merge op [] m2 = rest op [] m2. Proof. destruct m2; reflexivity. Qed.
  Lemma merge_nil_r op m1 : merge op m1 [] = rest op m1 []. Proof. destruct m1; reflexivity. Qed.

  Lemma countRest_ok s fuel : forall h m count, sees s h m -> (length m <= fuel)%nat -> countRest fuel s h count = Some (count + len m).
  Proof.
    induction fuel as [|fuel IH]; intros h m count Hs Hf; (destruct h as [x|]; [destruct (sees_some s x m Hs) as (kv & m' & -> & _ & H2)|
      rewrite (sees_none s m Hs); cbn; f_equal; lia]); cbn [length] in Hf; [lia|].
    cbn [countRest]. rewrite (IH _ m') by (auto; lia). f_equal. unfold len. cbn [length]. lia.
  Qed.
  Lemma compare_ok s1 s2 x1 x2 (kv1 kv2 : K * V) : slice x1 (top s1) = Some kv1 -> slice x2 (top s2) = Some kv2 ->
    compareAt cmp s1 s2 x1 x2 = Some (cmp (fst kv1) (fst kv2)).
  Proof. intros H1 H2. unfold compareAt. rewrite H1, H2. destruct kv1, kv2. reflexivity. Qed.

  Ltac len_ := unfold len; cbn [length]; rewrite ?app_length; cbn [length]; lia.
  Lemma countLoop_ok op s1 s2 fuel : forall h1 h2 m1 m2 count, sees s1 h1 m1 -> sees s2 h2 m2 -> (length m1 + length m2 <= fuel)%nat ->
    countLoop cmp fuel op s1 s2 (h1, h2) count = Some (count + len (merge op m1 m2)).
  Proof.
    induction fuel as [|fuel IH]; intros h1 h2 m1 m2 count H1 H2 Hf.
    - destruct m1, m2; cbn [length] in Hf; try lia.
      destruct h1 as [x|]; [destruct (sees_some _ _ _ H1) as (? & ? & ? & _); discriminate|].
      destruct h2 as [x|]; [destruct (sees_some _ _ _ H2) as (? & ? & ? & _); discriminate|].
      destruct op; cbn; f_equal; lia.
    - destruct h1 as [x1|], h2 as [x2|].
      + destruct (sees_some _ _ _ H1) as (kv1 & m1' & -> & A1 & A2). destruct (sees_some _ _ _ H2) as (kv2 & m2' & -> & B1 & B2).
        cbn [countLoop]. rewrite (compare_ok _ _ _ _ _ _ A1 B1). rewrite merge_cons. unfold emit. cbn [length] in Hf.
        destruct (cmp (fst kv1) (fst kv2) <? 0).
        { destruct op; rewrite (IH _ _ m1' (kv2 :: m2')) by (auto; cbn [length]; lia); f_equal; len_. }
        destruct (cmp (fst kv1) (fst kv2) >? 0).
        { destruct op; rewrite (IH _ _ (kv1 :: m1') m2') by (auto; cbn [length]; lia); f_equal; len_. }
        destruct op; rewrite (IH _ _ m1' m2') by (auto; cbn [length]; lia); f_equal; len_.
      + pose proof (sees_none _ _ H2); subst m2. rewrite merge_nil_r. cbn [length] in Hf.
        destruct op; cbn [countLoop rest]; [f_equal; cbn; lia| |]; rewrite (countRest_ok s1 _ _ m1) by (auto; lia); [|reflexivity].
        rewrite (countRest_ok s2 _ _ []) by (auto; cbn; lia). f_equal. len_.
      + pose proof (sees_none _ _ H1); subst m1. rewrite merge_nil_l. cbn [length] in Hf.
        destruct op; cbn [countLoop rest]; [f_equal; cbn; lia| |]; rewrite (countRest_ok s1 _ _ []) by (auto; cbn; lia); [|reflexivity].
        rewrite (countRest_ok s2 _ _ m2) by (auto; lia). f_equal. cbn [app]. unfold len. cbn [length]. lia.
      + pose proof (sees_none _ _ H1); pose proof (sees_none _ _ H2); subst m1 m2. rewrite merge_nil_l. destruct op; cbn; f_equal; lia.
  Qed.

  (** [L] is still to come *)
  Definition stream (fuel : nat) op s1 s2 (h : option nat * option nat) (L : entries) : Prop :=
    exists m1 m2, sees s1 (fst h) m1 /\ sees s2 (snd h) m2 /\ merge op m1 m2 = L /\ (length m1 + length m2 <= fuel)%nat.
  Lemma stream_more n fuel op s1 s2 h L : (n <= fuel)%nat -> stream n op s1 s2 h L -> stream fuel op s1 s2 h L.
  Proof. intros Hn (m1 & m2 & A & B & C & D). exists m1, m2. repeat (split; auto). lia. Qed.
  Lemma next_ok op s1 s2 x L fuel : forall h, stream fuel op s1 s2 h (x :: L) ->
    exists h', next cmp fuel op s1 s2 h = Some (h', x) /\ stream fuel op s1 s2 h' L.
  Proof.
    induction fuel as [|fuel IH]; intros [h1 h2] (m1 & m2 & H1 & H2 & H3 & Hf); cbn [fst snd] in *.
    - destruct m1, m2; cbn [length] in Hf; try lia. destruct op; discriminate.
    - destruct h1 as [x1|], h2 as [x2|].
      + destruct (sees_some _ _ _ H1) as (kv1 & m1' & -> & A1 & A2). destruct (sees_some _ _ _ H2) as (kv2 & m2' & -> & B1 & B2).
        cbn [next]. rewrite (compare_ok _ _ _ _ _ _ A1 B1). rewrite merge_cons in H3. unfold emit. cbn [length] in Hf.
        destruct (cmp (fst kv1) (fst kv2) <? 0).
        { assert (Y : forall L', merge op m1' (kv2 :: m2') = L' -> stream fuel op s1 s2 (d (lks s1) x1 true, Some x2) L').
          { intros L' X. exists m1', (kv2 :: m2'). split; [exact A2|]. split; [exact H2|]. split; [exact X|]. cbn [length]. lia. }
          destruct op.
          - destruct (IH _ (Y _ H3)) as (h' & -> & Z1). exists h'. split; auto. apply (stream_more fuel); auto.
          - injection H3 as -> H3. rewrite A1. eexists. split; [reflexivity|]. apply (stream_more fuel); auto.
          - injection H3 as -> H3. rewrite A1. eexists. split; [reflexivity|]. apply (stream_more fuel); auto. }
        destruct (cmp (fst kv1) (fst kv2) >? 0).
        { assert (Y : forall L', merge op (kv1 :: m1') m2' = L' -> stream fuel op s1 s2 (Some x1, d (lks s2) x2 true) L').
          { intros L' X. exists (kv1 :: m1'), m2'. split; [exact H1|]. split; [exact B2|]. split; [exact X|]. cbn [length]. lia. }
          destruct op.
          - destruct (IH _ (Y _ H3)) as (h' & -> & Z1). exists h'. split; auto. apply (stream_more fuel); auto.
          - injection H3 as -> H3. rewrite B1. eexists. split; [reflexivity|]. apply (stream_more fuel); auto.
          - destruct (IH _ (Y _ H3)) as (h' & -> & Z1). exists h'. split; auto. apply (stream_more fuel); auto. }
        assert (Y : forall L', merge op m1' m2' = L' -> stream fuel op s1 s2 (d (lks s1) x1 true, d (lks s2) x2 true) L').
        { intros L' X. exists m1', m2'. split; [exact A2|]. split; [exact B2|]. split; [exact X|]. lia. }
        destruct op.
        * injection H3 as -> H3. rewrite A1. eexists. split; [reflexivity|]. apply (stream_more fuel); auto.
        * injection H3 as -> H3. rewrite A1. eexists. split; [reflexivity|]. apply (stream_more fuel); auto.
        * destruct (IH _ (Y _ H3)) as (h' & -> & Z1). exists h'. split; auto. apply (stream_more fuel); auto.
      + pose proof (sees_none _ _ H2); subst m2. rewrite merge_nil_r in H3. cbn [length] in Hf.
        destruct (sees_some _ _ _ H1) as (kv1 & m1' & -> & A1 & A2). cbn [length] in Hf.
        destruct op; cbn [rest] in H3; [discriminate| |]; cbn [app] in H3; injection H3 as -> H3; cbn [next]; rewrite A1.
        * eexists. split; [reflexivity|]. exists m1', []. cbn [fst snd]. split; [exact A2|]. split; [exact H2|]. rewrite merge_nil_r. split; [exact H3|]. cbn; lia.
        * eexists. split; [reflexivity|]. exists m1', []. cbn [fst snd]. split; [exact A2|]. split; [exact H2|]. rewrite merge_nil_r. split; [exact H3|]. cbn; lia.
      + pose proof (sees_none _ _ H1); subst m1. rewrite merge_nil_l in H3. cbn [length] in Hf.
        destruct (sees_some _ _ _ H2) as (kv2 & m2' & -> & A1 & A2). cbn [length] in Hf.
        destruct op; cbn [rest] in H3; [discriminate| |discriminate]; cbn [app] in H3; injection H3 as -> H3; cbn [next]; rewrite A1.
        eexists. split; [reflexivity|]. exists [], m2'. cbn [fst snd]. split; [exact H1|]. split; [exact A2|]. rewrite merge_nil_l. split; [exact H3|]. cbn; lia.
      + pose proof (sees_none _ _ H1); pose proof (sees_none _ _ H2); subst m1 m2. rewrite merge_nil_l in H3. destruct op; discriminate.
  Qed.

  (** ** building *)
  (** the thread [A] is there, the rightmost link open; nothing else is linked *)
  Definition laid (st : building) (A : list nat) : Prop :=
    prev st = last_error A /\ linked (d (blks st)) (fun b => if b then last_error A else e (blks st) false) A /\
    (forall x b, ~ In x A -> d (blks st) x b = None) /\ NoDup A /\ (forall x, In x A -> (x < bfresh st)%nat).
  Lemma chain_ok st A x : laid st A -> ~ In x A -> (x < bfresh st)%nat -> laid (chain x st) (A ++ [x]).
  Proof.
    intros (H1 & (L1 & L2 & L3) & H3 & H4 & H5) Hx Hf. unfold laid, chain. rewrite H1. cbn [prev blks bfresh]. split; [symmetry; apply last_snoc|].
    assert (Hn : NoDup (A ++ [x])). { apply NoDup_Add with (a := x) (l := A); [rewrite <- (app_nil_r A) at 1; apply Add_app|]. auto. }
    assert (Hlt : forall y, In y (A ++ [x]) -> (y < bfresh st)%nat).
    { intros y Hy. apply in_app_iff in Hy. destruct Hy as [Hy|[<-|[]]]; auto. }
    destruct (snoc_cases A) as [->|(A' & p & ->)].
    - cbn [app last_error rev hd_error] in *. split; [|split; [|auto]].
      + split; [reflexivity|]. split; [reflexivity|]. intros a y b Eq. destruct a as [|? [|? ?]]; try discriminate. injection Eq as <- <-.
        rewrite !sete_d. cbn. split; apply H3; auto.
      + intros y b Hy. rewrite sete_d. apply H3. auto.
    - rewrite last_snoc. split; [|split; [|auto]].
      + split; [|split].
        * cbn beta iota. rewrite !setd_e. rewrite L1. destruct A'; reflexivity.
        * reflexivity.
        * intros a y b Eq. destruct (snoc_cases b) as [->|(b' & z & ->)].
          -- apply app_inj_tail in Eq. destruct Eq as (<- & <-). rewrite setd_here, last_snoc. split; [reflexivity|].
             rewrite setd_other by (right; discriminate).
             rewrite setd_other by (left; intros ->; apply Hx; apply in_or_app; right; left; reflexivity). apply H3. exact Hx.
          -- rewrite app_comm_cons, app_assoc in Eq. apply app_inj_tail in Eq. destruct Eq as (Eq & <-).
             destruct (L3 a y b' Eq) as (Y1 & Y2). assert (Hy : y <> x).
             { intros ->. apply Hx. rewrite Eq. apply in_elt. }
             rewrite !(setd_other x) by (left; exact Hy). split.
             ++ rewrite setd_other by (right; discriminate). exact Y1.
             ++ destruct (snoc_cases b') as [->|(b'' & w & ->)].
                ** apply app_inj_tail in Eq. destruct Eq as (_ & <-). rewrite setd_here. reflexivity.
                ** rewrite setd_other; [rewrite Y2; destruct b''; reflexivity|]. left. intros ->.
                   rewrite app_comm_cons, app_assoc in Eq. apply app_inj_tail in Eq. destruct Eq as (Eq & _).
                   destruct (nodup_mid A' p [] H4) as (H4' & _). apply H4'. rewrite Eq. apply in_elt.
      + intros y b Hy. rewrite in_app_iff in Hy. cbn [In] in Hy.
        rewrite (setd_other x) by (left; intros ->; tauto). rewrite setd_other; [apply H3; tauto|].
        left. intros ->. apply Hy. left. apply in_or_app. right. left. reflexivity.
  Qed.

  Lemma build_ok op s1 s2 fuel depth : forall size st A L, size <= Z.of_nat depth -> 0 <= size <= len L -> laid st A ->
    stream fuel op s1 s2 (bheads st) L ->
    exists t st', build cmp depth fuel op s1 s2 size st = Some (t, st') /\
      pk (elems t) = firstn (Z.to_nat size) L /\ sized t /\ laid st' (A ++ ids (elems t)) /\
      stream fuel op s1 s2 (bheads st') (skipn (Z.to_nat size) L) /\
      (forall x, In x (ids (elems t)) -> (bfresh st <= x)%nat) /\ (bfresh st <= bfresh st')%nat.
  Proof.
    induction depth as [|depth IH]; intros size st A L Hd Hs HA HL.
    - replace size with 0 by lia. cbn. exists E, st. rewrite app_nil_r. repeat (split; auto). intros x [].
    - cbn [build]. destruct (Z.eqb_spec size 0) as [->|Hz].
      { cbn. exists E, st. rewrite app_nil_r. repeat (split; auto). intros x []. }
      assert (Hq : 0 <= Z.quot size 2 < size) by (split; [apply Z.quot_pos; lia|apply Z.quot_lt; lia]).
      set (q := Z.quot size 2) in *. set (x := bfresh st).
      destruct (IH q (B (prev st) (blks st) (S x) (bheads st)) A L) as (l & st1 & -> & E1 & E2 & E3 & E4 & E5 & E6); [lia|lia| |exact HL|].
      { destruct HA as (A1 & A2 & A3 & A4 & A5). unfold laid. cbn [prev blks bfresh]. repeat (split; auto). intros y Hy. specialize (A5 y Hy). unfold x. lia. }
      cbn [bfresh bheads] in *.
      destruct (skipn (Z.to_nat q) L) as [|[k v] L'] eqn:EL.
      { exfalso. apply (f_equal (@length _)) in EL. rewrite skipn_length in EL. unfold len in *. cbn [length] in EL. lia. }
      destruct (next_ok op s1 s2 (k, v) L' fuel _ E4) as (h & -> & E7).
      assert (Hx : ~ In x (A ++ ids (elems l))).
      { rewrite in_app_iff. intros [X|X]; [destruct HA as (_ & _ & _ & _ & A5); specialize (A5 x X); unfold x in *; lia|specialize (E5 x X); lia]. }
      pose proof (chain_ok (B (prev st1) (blks st1) (bfresh st1) h) (A ++ ids (elems l)) x) as C. cbn [bfresh] in C.
      destruct (IH (size - q - 1) (chain x (B (prev st1) (blks st1) (bfresh st1) h)) ((A ++ ids (elems l)) ++ [x]) L') as (r & st2 & -> & F1 & F2 & F3 & F4 & F5 & F6); [lia| | |exact E7|].
      { apply (f_equal (@length _)) in EL. rewrite skipn_length in EL. unfold len in *. cbn [length] in EL. lia. }
      { apply C; auto; lia. }
      eexists _, _. split; [reflexivity|]. cbn [bfresh chain] in *. unfold sum. rewrite sum_elems, pk_app, pk_cons, ids_app, ids_cons. cbn [fst snd plainKV].
      assert (EL2 : L = firstn (Z.to_nat q) L ++ (k, v) :: L') by (rewrite <- EL; symmetry; apply firstn_skipn).
      assert (Hlq : length (firstn (Z.to_nat q) L) = Z.to_nat q) by (rewrite firstn_length; unfold len in *; lia).
      split; [|split; [|split; [|split; [|split]]]].
      + rewrite E1, F1. set (G := firstn (Z.to_nat q) L) in *. rewrite EL2. rewrite firstn_app, Hlq, (firstn_all2 G) by lia. f_equal.
        replace (Z.to_nat size - Z.to_nat q)%nat with (S (Z.to_nat (size - q - 1))) by lia. reflexivity.
      + apply sum_sized; auto.
      + rewrite <- !app_assoc in F3. exact F3.
      + set (G := firstn (Z.to_nat q) L) in *. rewrite EL2. rewrite skipn_app, Hlq, (skipn_all2 G) by lia. cbn [app].
        replace (Z.to_nat size - Z.to_nat q)%nat with (S (Z.to_nat (size - q - 1))) by lia. exact F4.
      + intros y Hy. rewrite in_app_iff in Hy. cbn [In] in Hy. destruct Hy as [Hy|[<-|Hy]]; [specialize (E5 y Hy); lia|unfold x; lia|specialize (F5 y Hy); lia].
      + lia.
  Qed.

  Lemma setOperation_ok op s1 s2 m1 m2 : TRel ltb false s1 m1 -> TRel ltb false s2 m2 -> strictly_sorted ltb (merge op m1 m2) ->
    exists s, setOperation cmp op s1 s2 = Some s /\ TRel ltb false s (merge op m1 m2).
  Proof.
    intros R1 R2 Hm. pose proof (sees_start _ _ _ R1 eq_refl) as V1. pose proof (sees_start _ _ _ R2 eq_refl) as V2.
    unfold setOperation. set (fuel := S _).
    assert (Hf : (length m1 + length m2 <= fuel)%nat).
    { destruct R1 as (X1 & _), R2 as (X2 & _). unfold fuel. rewrite <- X1, <- X2. unfold pk. rewrite !map_length. lia. }
    rewrite (countLoop_ok op s1 s2 fuel _ _ m1 m2 0 V1 V2 Hf). rewrite Z.add_0_l.
    destruct (Z.eqb_spec (len (merge op m1 m2)) 0) as [E0|E0].
    { exists new. split; auto. destruct (merge op m1 m2); [|unfold len in E0; cbn [length] in E0; lia].
      unfold TRel, new. cbn [top lks fresh elems pk map ids sized]. split; [reflexivity|]. split; [exact I|]. split; [constructor|].
      split; [constructor|]. split; [intros x []|]. split; [|discriminate]. intros _. cbn [d e]. split; [reflexivity|]. split; [reflexivity|].
      intros a x b Eq. destruct a; discriminate. }
    destruct (build_ok op s1 s2 fuel (Z.to_nat (len (merge op m1 m2))) (len (merge op m1 m2))
      (B None (lks (@new K V)) 0 (e (lks s1) false, e (lks s2) false)) [] (merge op m1 m2)) as (t & st & -> & E1 & E2 & E3 & E4 & E5 & E6).
    - unfold len. lia.
    - unfold len. lia.
    - unfold laid. cbn. split; [reflexivity|]. split; [|split; [auto|]; split; [constructor|intros x []]].
      split; [reflexivity|]. split; [reflexivity|]. intros a x b Eq. destruct a; discriminate.
    - exists m1, m2. cbn [fst snd bheads]. auto.
    - eexists. split; [reflexivity|]. cbn [app] in E3. destruct E3 as (P1 & (P2 & P3 & P4) & P5 & P6 & P7).
      unfold TRel. cbn [top lks fresh]. split.
      { rewrite E1. apply firstn_all2. unfold len. lia. }
      split; [exact E2|]. split; [exact Hm|]. split; [exact P6|]. split; [exact P7|]. split; [|discriminate]. intros _.
      split; [cbn; exact P2|]. split; [cbn; exact P1|]. intros a x b Eq. rewrite sete_d. apply P4. exact Eq.
  Qed.

  (** ** what that is *)
  Definition member (op : set_op) m1 m2 (x : K * V) : Prop :=
    match op with
    | Intersection => In x m1 /\ has ltb (fst x) m2
    | Union => In x m1 \/ (In x m2 /\ ~ has ltb (fst x) m1)
    | Difference => In x m1 /\ ~ has ltb (fst x) m2
    end.
  Lemma has_nil k : ~ has ltb k (@nil (K * V)). Proof. intros (x & [] & _). Qed.
  Lemma has_cons k y m : has ltb k (y :: m) <-> same ltb (fst y) k = true \/ has ltb k m.
  Proof.
    split.
    - intros (x & [<-|H] & E1); [auto|]. right. exists x. auto.
    - intros [H|(x & H & E1)]; [exists y; split; [left|]; auto|exists x; split; [right|]; auto].
  Qed.
  Lemma has_below k m : (forall y, In y m -> ltb k (fst y) = true) -> ~ has ltb k m.
  Proof. intros H (x & Hx & E1). apply same_iff in E1. specialize (H x Hx). rewrite H in E1. destruct E1; discriminate. Qed.
  Lemma sorted_cons x m : strictly_sorted ltb (x :: m) <-> strictly_sorted ltb m /\ forall y, In y m -> ltb (fst x) (fst y) = true.
  Proof.
    unfold strictly_sorted. split.
    - intros H. apply StronglySorted_inv in H. destruct H as (H1 & H2). rewrite Forall_forall in H2. auto.
    - intros (H1 & H2). constructor; auto. apply Forall_forall. auto.
  Qed.
  Lemma not_same_lt (x y : K * V) : ltb (fst x) (fst y) = true -> same ltb (fst y) (fst x) = false /\ same ltb (fst x) (fst y) = false.
  Proof. intros H. unfold same. rewrite H, ?andb_false_r. auto. Qed.
  Lemma has_same k k' m : same ltb k k' = true -> has ltb k m -> has ltb k' m.
  Proof.
    intros H (x & Hx & E1). exists x. split; auto. apply same_iff in H, E1. apply same_iff.
    destruct H as (A1 & A2), E1 as (B1 & B2). split; eapply (le_le ltb W); eauto.
  Qed.

  Lemma rest_in_l op m2 x : In x (rest op [] m2) <-> member op [] m2 x.
  Proof. pose proof (has_nil (fst x)). destruct op; cbn [rest member In app]; tauto. Qed.
  Lemma rest_in_r op m1 x : In x (rest op m1 []) <-> member op m1 [] x.
  Proof. pose proof (has_nil (fst x)). destruct op; cbn [rest member In app]; rewrite ?app_nil_r; tauto. Qed.
  Lemma member_from op m1 m2 x : member op m1 m2 x -> In x m1 \/ In x m2.
  Proof. destruct op; cbn [member]; tauto. Qed.

  Lemma merge_ok op m1 : forall m2, strictly_sorted ltb m1 -> strictly_sorted ltb m2 ->
    strictly_sorted ltb (merge op m1 m2) /\ forall x, In x (merge op m1 m2) <-> member op m1 m2 x.
  Proof.
    induction m1 as [|x1 m1 IH1].
    { intros m2 _ H2. rewrite merge_nil_l. split; [destruct op; cbn [rest app]; auto; constructor|]. apply rest_in_l. }
    intros m2 H1. induction m2 as [|x2 m2 IH2]; intros H2.
    { rewrite merge_nil_r. split; [destruct op; cbn [rest]; rewrite ?app_nil_r; auto; constructor|]. apply rest_in_r. }
    rewrite merge_cons. pose proof H1 as H1'. pose proof H2 as H2'. apply sorted_cons in H1', H2'. destruct H1' as (S1 & B1), H2' as (S2 & B2).
    rewrite (lt0 ltb W cmp Hcmp), (gt0 ltb W cmp Hcmp). destruct (ltb (fst x1) (fst x2)) eqn:E1; [|destruct (ltb (fst x2) (fst x1)) eqn:E2].
    - destruct (IH1 (x2 :: m2) S1 H2) as (I1 & I2).
      assert (Hb : forall y, In y (x2 :: m2) -> ltb (fst x1) (fst y) = true).
      { intros y [<-|Hy]; auto. apply (wo_trans _ W _ (fst x2)); auto. }
      assert (Ha : forall y, In y (merge op m1 (x2 :: m2)) -> ltb (fst x1) (fst y) = true).
      { intros y Hy. apply I2, member_from in Hy. destruct Hy; auto. }
      pose proof (has_below _ _ Hb) as N1.
      assert (N2 : forall y, In y (x2 :: m2) -> (has ltb (fst y) (x1 :: m1) <-> has ltb (fst y) m1)).
      { intros y Hy. rewrite has_cons. destruct (not_same_lt x1 y (Hb y Hy)) as (_ & ->). intuition discriminate. }
      destruct op.
      + split; [exact I1|]. intros x. rewrite I2. cbn [member]. cbn [In]. split; [tauto|]. intros ([<-|X] & Y); tauto.
      + split; [apply sorted_cons; auto|]. intros x. cbn [In]. rewrite I2. cbn [member]. specialize (N2 x). cbn [In] in N2. cbn [In]. tauto.
      + split; [apply sorted_cons; auto|]. intros x. cbn [In]. rewrite I2. cbn [member In]. split; [intros [<-|X]; tauto|tauto].
    - destruct (IH2 S2) as (I1 & I2).
      assert (Hb : forall y, In y (x1 :: m1) -> ltb (fst x2) (fst y) = true).
      { intros y [<-|Hy]; auto. apply (wo_trans _ W _ (fst x1)); auto. }
      assert (Ha : forall y, In y (merge op (x1 :: m1) m2) -> ltb (fst x2) (fst y) = true).
      { intros y Hy. apply I2, member_from in Hy. destruct Hy; auto. }
      pose proof (has_below _ _ Hb) as N1.
      assert (N2 : forall y, In y (x1 :: m1) -> (has ltb (fst y) (x2 :: m2) <-> has ltb (fst y) m2)).
      { intros y Hy. rewrite has_cons. destruct (not_same_lt x2 y (Hb y Hy)) as (_ & ->). intuition discriminate. }
      destruct op.
      + split; [exact I1|]. intros x. rewrite I2. cbn [member]. specialize (N2 x). tauto.
      + split; [apply sorted_cons; auto|]. intros x. change (In x (x2 :: merge Union (x1 :: m1) m2)) with (x2 = x \/ In x (merge Union (x1 :: m1) m2)).
        rewrite I2. cbn [member]. change (In x (x2 :: m2)) with (x2 = x \/ In x m2). split; [intros [<-|X]; tauto|tauto].
      + split; [exact I1|]. intros x. rewrite I2. cbn [member]. specialize (N2 x). tauto.
    - destruct (IH1 m2 S1 S2) as (I1 & I2). assert (Es : same ltb (fst x1) (fst x2) = true) by (apply same_iff; auto).
      assert (Hb : forall y, In y m2 -> ltb (fst x1) (fst y) = true).
      { intros y Hy. rewrite (same_lt_l ltb W _ _ (fst y) Es). auto. }
      assert (Hc : forall y, In y m1 -> ltb (fst x2) (fst y) = true).
      { intros y Hy. rewrite <- (same_lt_l ltb W _ _ (fst y) Es). auto. }
      assert (Ha : forall y, In y (merge op m1 m2) -> ltb (fst x1) (fst y) = true).
      { intros y Hy. apply I2, member_from in Hy. destruct Hy; auto. }
      assert (N1 : forall y, In y m1 -> (has ltb (fst y) (x2 :: m2) <-> has ltb (fst y) m2)).
      { intros y Hy. rewrite has_cons. destruct (not_same_lt x2 y (Hc y Hy)) as (_ & ->). intuition discriminate. }
      assert (N2 : forall y, In y m2 -> (has ltb (fst y) (x1 :: m1) <-> has ltb (fst y) m1)).
      { intros y Hy. rewrite has_cons. destruct (not_same_lt x1 y (Hb y Hy)) as (_ & ->). intuition discriminate. }
      assert (N3 : has ltb (fst x1) (x2 :: m2)). { apply has_cons. left. unfold same in *. rewrite andb_comm. exact Es. }
      assert (N4 : has ltb (fst x2) (x1 :: m1)). { apply has_cons. left. exact Es. }
      destruct op.
      + split; [apply sorted_cons; auto|]. intros x. cbn [In]. rewrite I2. cbn [member In]. specialize (N1 x). split; [intros [<-|X]; tauto|tauto].
      + split; [apply sorted_cons; auto|]. intros x. cbn [In]. rewrite I2. cbn [member In]. specialize (N2 x). split; [tauto|].
        intros [[X|X]|([X|X] & Y)]; [tauto|tauto|subst x2; tauto|tauto].
      + split; [exact I1|]. intros x. rewrite I2. cbn [member In]. specialize (N1 x). split; [tauto|]. intros ([<-|X] & Y); tauto.
  Qed.
End Sets.
