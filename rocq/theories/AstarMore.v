(** Whole calls of graph/astar: the search from a clean grid, what it leaves alone, Clear, and costs on open ground. *)
From Verif Require Import Base Bind Machine HeapSpec HeapModel HeapProofs AstarSpec AstarModel AstarProofs.
Local Open Scope Z_scope.

(** ** what a search does not touch *)
Record frame (g g' : graph) : Prop := {
  fr_x : dimX g' = dimX g; fr_y : dimY g' = dimY g; fr_s : start g' = start g; fr_e : finish g' = finish g; fr_8 : neighbor g' = neighbor g;
  fr_a : forall q, attr (tiles g' q) = attr (tiles g q);
  fr_h : (16 <= length (elements (openHeap g)) -> 16 <= length (elements (openHeap g')))%nat }.
Lemma frame_refl g : frame g g. Proof. constructor; auto. Qed.
Lemma frame_trans a b c : frame a b -> frame b c -> frame a c.
Proof. intros [] []. constructor; try congruence; auto; intros q; congruence. Qed.
Section F.
  Context (Cost Weight : graph -> pos -> pos -> Z) (sortPaths : list (list pos) -> list (list pos)).
  Lemma discover_frame p g n g' : discover Cost Weight p g n = Some g' -> frame g g' /\ pathlist g' = pathlist g.
  Proof.
    unfold discover. destruct (negb _ && negb _); [|intros E; injection E as <-; split; [apply frame_refl|auto]].
    destruct (put _ _ _ _) as [h|] eqn:E; [|discriminate]. intros E1. injection E1 as <-. split; [|reflexivity].
    constructor; auto; cbn [tiles openHeap with_heap with_tiles].
    - intros q. unfold upd. destruct (peqb q n) eqn:Eq; auto. apply peqb_eq in Eq as ->. reflexivity.
    - intros H. eapply put_big; eauto.
  Qed.
  Lemma discoverAll_frame p ns : forall g g', discoverAll Cost Weight p g ns = Some g' -> frame g g' /\ pathlist g' = pathlist g.
  Proof.
    induction ns as [|n ns IH]; intros g g' E; cbn [discoverAll] in E; [injection E as <-; split; [apply frame_refl|auto]|].
    destruct (discover Cost Weight p g n) as [g1|] eqn:E1; [|discriminate]. apply discover_frame in E1 as (F1 & F2). apply IH in E as (F3 & F4).
    split; [eapply frame_trans; eauto|congruence].
  Qed.
  Lemma loop_frame multi s e fuel : forall g g' b, loop Cost Weight sortPaths fuel multi s e g = Some (g', b) ->
    frame g g' /\ (b = false -> pathlist g' = pathlist g).
  Proof.
    induction fuel as [|fuel IH]; intros g g' b E; cbn [loop] in E; [discriminate|].
    destruct (pop _ _) as [[h r]|] eqn:E1; [|discriminate].
    assert (F0 : frame g (with_heap g h)). { constructor; auto. cbn. intros H. eapply pop_big; eauto. }
    destruct r as [x|]; [|injection E as <- <-; auto]. cbv zeta in E. destruct (peqb x e).
    - assert (F1 : forall ps, frame g (with_paths (with_heap g h) ps)). { intros ps. destruct F0. constructor; auto. }
      destruct multi; [destruct (multiPath _ _ _ _ _)|destruct (singlePath _ _ _ _ _)]; try discriminate; injection E as <- <-; (split; [auto|discriminate]).
    - destruct (discoverAll Cost Weight x _ _) as [g1|] eqn:E2; [|discriminate]. apply discoverAll_frame in E2 as (F1 & F2).
      apply IH in E as (F3 & F4). split; [eapply frame_trans; [eauto|eapply frame_trans; eauto]|]. intros Hb. rewrite F4, F2; auto.
  Qed.
End F.

(** ** Clear *)
Definition wiped (ts : pos -> tile) (p : pos) : Prop := cost (ts p) = 0 /\ weight (ts p) = 0 /\ isCount (ts p) = false.
Definition clean (g : graph) : Prop := forall p, within (dimX g) (dimY g) p -> wiped (tiles g) p.
Definition restored (g : graph) (a : Z) : option Z :=
  if a =? PATH then Some PLAIN else if a =? START then option_map pattr (start g) else if a =? END then option_map pattr (finish g) else Some a.
Lemma clearTiles_ok ps : forall g g' ok, NoDup ps -> clearTiles g ps = (g', ok) ->
  dimX g' = dimX g /\ dimY g' = dimY g /\ start g' = start g /\ finish g' = finish g /\ neighbor g' = neighbor g /\ pathlist g' = pathlist g /\ openHeap g' = openHeap g /\
  (forall q, ~ In q ps -> tiles g' q = tiles g q) /\ (forall q, In q ps -> tiles g' q = tiles g q \/ wiped (tiles g') q) /\
  (ok = true -> forall q, In q ps -> wiped (tiles g') q /\ restored g (attr (tiles g q)) = Some (attr (tiles g' q))) /\
  ((forall q, In q ps -> restored g (attr (tiles g q)) <> None) -> ok = true).
Proof.
  induction ps as [|p ps IH]; intros g g' ok Hd E; cbn [clearTiles] in E.
  - injection E as <- <-. do 8 (split; [auto|]). split; [intros q []|]. split; [intros _ q []|auto].
  - fold (restored g (attr (tiles g p))) in E. destruct (restored g (attr (tiles g p))) as [a'|] eqn:Er.
    + inversion Hd as [|? ? Hp Hd']; subst. apply IH in E as (A1 & A2 & A3 & A4 & A5 & A6 & A7 & A8 & A9 & A10 & A11); auto.
      cbn [dimX dimY start finish neighbor pathlist openHeap with_tiles] in *.
      split; auto. split; auto. split; auto. split; auto. split; auto. split; auto. split; auto.
      assert (Hold : forall q, q <> p -> upd (tiles g) p (T 0 0 false a') q = tiles g q) by (intros q Hq; apply upd_other; auto).
      assert (Hnp : tiles g' p = T 0 0 false a'). { rewrite A8 by auto. cbn [tiles with_tiles]. apply upd_same. }
      split; [|split; [|split]].
      * intros q Hq. rewrite A8 by (intros X; apply Hq; now right). cbn [tiles with_tiles]. apply Hold. intros ->. apply Hq. now left.
      * intros q [<-|Hq]; [right; unfold wiped; rewrite Hnp; auto|]. assert (q <> p) by congruence.
        destruct (A9 q Hq) as [X|X]; auto. left. rewrite X. cbn [tiles with_tiles]. auto.
      * intros Hok q [<-|Hq]; [unfold wiped; rewrite Hnp; auto|]. assert (q <> p) by congruence.
        destruct (A10 Hok q Hq) as (X & Y). split; auto. rewrite <- Y. cbn [tiles with_tiles]. rewrite Hold by auto. reflexivity.
      * intros Hall. apply A11. intros q Hq. assert (q <> p) by congruence. cbn [tiles with_tiles]. rewrite Hold by auto. apply Hall. now right.
    + injection E as <- <-. do 9 (split; [auto|]). split; [discriminate|]. intros H. destruct (H p (or_introl eq_refl) Er).
Qed.
Lemma nodup_cells w h : NoDup (cells w h).
Proof.
  unfold cells. generalize 0%nat at 2 as k. induction (Z.to_nat h) as [|n IH]; intros k; cbn [seq flat_map]; [constructor|].
  assert (G : NoDup (map (fun x => (Z.of_nat x, Z.of_nat k)) (seq 0 (Z.to_nat w)))).
  { generalize (seq_NoDup (Z.to_nat w) 0). generalize (seq 0 (Z.to_nat w)). induction l as [|x l IHl]; intros Hd; [constructor|].
    inversion Hd; subst. cbn. constructor; auto. rewrite in_map_iff. intros (y & E & Hy). injection E as E. assert (y = x) by lia. congruence. }
  assert (D : forall q, In q (map (fun x => (Z.of_nat x, Z.of_nat k)) (seq 0 (Z.to_nat w))) ->
     ~ In q (flat_map (fun y => map (fun x => (Z.of_nat x, Z.of_nat y)) (seq 0 (Z.to_nat w))) (seq (S k) n))).
  { intros q Hq Hq2. apply in_map_iff in Hq as (x & <- & _). apply in_flat_map in Hq2 as (y & Hy & Hq2). apply in_map_iff in Hq2 as (x' & E & _).
    injection E as _ E. apply in_seq in Hy. lia. }
  revert G D. generalize (map (fun x => (Z.of_nat x, Z.of_nat k)) (seq 0 (Z.to_nat w))). specialize (IH (S k)).
  revert IH. generalize (flat_map (fun y => map (fun x => (Z.of_nat x, Z.of_nat y)) (seq 0 (Z.to_nat w))) (seq (S k) n)).
  intros l2 H2 l1. induction l1 as [|q l1 IH1]; intros G D; cbn; auto. inversion G; subst. constructor.
  - intros X. apply in_app_or in X as [X|X]; [auto|]. apply (D q); [now left|auto].
  - apply IH1; auto. intros r Hr. apply D. now right.
Qed.

(** ** a search from a clean grid *)
Section Search.
  Context (Cost Weight : graph -> pos -> pos -> Z) (sortPaths : list (list pos) -> list (list pos)).
  Definition idle (g : graph) : Prop := size (openHeap g) = 0%nat /\ (16 <= length (elements (openHeap g)))%nat.
  Definition open_tile (g : graph) (s e p : pos) : Prop := within (dimX g) (dimY g) p /\ (attr (tiles g p) <> BLOCK \/ p = s \/ p = e).
  Lemma idle_HI g ts : idle g -> HI ts (openHeap g) [].
  Proof.
    intros (H1 & H2). split.
    - split; [lia|]. split; [auto|]. intros i Hi. lia.
    - unfold live. rewrite H1. reflexivity.
  Qed.
  Lemma route_mono e8 (f f' : pos -> Prop) a l b : (forall p, f p -> f' p) -> route e8 f a l b -> route e8 f' a l b.
  Proof. intros H. induction 1; [constructor|eapply route_step]; eauto. Qed.

  (** the tiles the loop starts with *)
  Definition marked (g : graph) (s e : pos) : pos -> tile :=
    let ts := upd (tiles g) s (T (cost (tiles g s)) (weight (tiles g s)) true START) in
    upd ts e (T (cost (ts e)) (weight (ts e)) false END).
  Lemma search_unfold multi g sp ep : start g = Some sp -> finish g = Some ep -> idle g ->
    within (dimX g) (dimY g) (at_ sp) -> within (dimX g) (dimY g) (at_ ep) ->
    exists h, HI (marked g (at_ sp) (at_ ep)) h [at_ sp] /\ (16 <= length (elements h))%nat /\
    search Cost Weight sortPaths multi g =
      match loop Cost Weight sortPaths (S (S (area g))) multi (at_ sp) (at_ ep)
        (G (dimX g) (dimY g) (Some (P (at_ sp) (attr (tiles g (at_ sp)))))
           (Some (P (at_ ep) (if peqb (at_ ep) (at_ sp) then START else attr (tiles g (at_ ep)))))
           (pathlist g) (marked g (at_ sp) (at_ ep)) (neighbor g) h) with
      | None => None | Some (g', b) => Some (with_heap g' (clear (openHeap g')), ABool b) end.
  Proof.
    intros Hs He Hi Ws We. unfold search. rewrite Hs, He.
    apply inside_within in Ws. rewrite Ws. cbn [negb].
    assert (We' : inside (with_tiles (with_target g (Some (P (at_ sp) (attr (tiles g (at_ sp))))) (Some ep))
       (upd (tiles (with_target g (Some (P (at_ sp) (attr (tiles g (at_ sp))))) (Some ep))) (at_ sp)
        (T (cost (tiles g (at_ sp))) (weight (tiles g (at_ sp))) true START))) (at_ ep) = true).
    { apply inside_within. exact We. }
    rewrite We'. cbn [negb]. cbn [with_tiles with_target tiles openHeap dimX dimY start neighbor pathlist].
    destruct (HI_put (marked g (at_ sp) (at_ ep)) (openHeap g) [] (at_ sp)) as (h & E & Hh); [now apply idle_HI|].
    exists h. split; auto. split; [eapply put_big; [apply Hi|exact E]|]. fold (marked g (at_ sp) (at_ ep)).
    unfold marked in E |- *. rewrite E. cbn [with_heap]. unfold area. cbn [dimX dimY].
    replace (attr (upd (tiles g) (at_ sp) (T (cost (tiles g (at_ sp))) (weight (tiles g (at_ sp))) true START) (at_ ep)))
      with (if peqb (at_ ep) (at_ sp) then START else attr (tiles g (at_ ep))) by (unfold upd; destruct (peqb (at_ ep) (at_ sp)); reflexivity).
    reflexivity.
  Qed.

  (** [Q]: see AstarProofs.loop_ok *)
  Context (g : graph) (sp ep : point) (Hsp : start g = Some sp) (Hep : finish g = Some ep) (Hidle : idle g) (Hclean : clean g).
  Notation s := (at_ sp). Notation e := (at_ ep). Notation w := (dimX g). Notation h := (dimY g).
  Context (Ws : within w h s) (We : within w h e).
  Definition A0 : pos -> Z := fun q => attr (marked g s e q).
  Lemma A0_free p : AstarProofs.free w h A0 p <-> open_tile g s e p.
  Proof.
    unfold AstarProofs.free, open_tile, A0, marked, upd. split; intros (H1 & H2); (split; [auto|]).
    - destruct (peqb p e) eqn:E1; [apply peqb_eq in E1; auto|]. destruct (peqb p s) eqn:E2; [apply peqb_eq in E2; auto|]. auto.
    - destruct (peqb p e) eqn:E1; [discriminate|]. destruct (peqb p s) eqn:E2; [discriminate|]. cbn.
      destruct H2 as [H2|[-> | ->]]; [auto|rewrite peqb_refl in E2; discriminate|rewrite peqb_refl in E1; discriminate].
  Qed.
  Lemma init_TI : s <> e -> TI Cost Weight w h (neighbor g) A0 s e (marked g s e) [] [s] s [].
  Proof.
    intros Hse. assert (Ms : marked g s e s = T (cost (tiles g s)) (weight (tiles g s)) true START).
    { unfold marked. rewrite upd_other by auto. apply upd_same. }
    assert (Mc : forall q, q <> s -> within w h q -> isCount (marked g s e q) = false).
    { intros q Hq Hw. unfold marked, upd. destruct (peqb q e); [reflexivity|]. rewrite peqb_neq by auto. apply Hclean. auto. }
    constructor; cbn [app].
    - reflexivity.
    - constructor; [auto|constructor].
    - intros q. split; [intros [<-|[]]; rewrite Ms; auto|]. intros (H1 & H2). destruct (pos_dec q s); [left; auto|]. rewrite Mc in H2 by auto. discriminate.
    - intros [].
    - intros c n [].
    - left; auto.
    - rewrite Ms. cbn. apply Hclean. auto.
    - intros q [<-|[]] X. contradiction.
    - intros q [<-|[]]. rewrite Ms. cbn. destruct (Hclean s Ws) as (-> & _). lia.
    - intros q [<-|[]]. unfold A0. rewrite Ms. discriminate.
    - intros q [<-|[]] X. contradiction.
    - auto.
  Qed.

  Context (Up : s <> e -> forall g0 n p, (forall q, attr (tiles g0 q) = A0 q) -> AstarProofs.free w h A0 n -> n <> s -> n <> e -> cost (tiles g0 p) < Cost g0 n p).
  Context (Up_end : s <> e -> forall g0 p, (forall q, attr (tiles g0 q) = A0 q) -> cost (tiles g0 p) <= Cost g0 e p).
  Context (Q : (pos -> tile) -> list pos -> list pos -> Prop) (Q0 : Q (marked g s e) [] [s]).
  Context (HQ : s <> e -> forall ts ts' cl op p x op' op2, TI Cost Weight w h (neighbor g) A0 s e ts cl op p [] -> Permutation op (x :: op') ->
     (forall y, In y op -> weight (ts y) <= weight (ts x)) -> Q ts cl op -> TI Cost Weight w h (neighbor g) A0 s e ts' (x :: cl) op2 p [] ->
     (forall q, In q (cl ++ op) -> ts' q = ts q /\ In q (x :: cl ++ op2)) -> Q ts' (x :: cl) op2).
  (** the state in which the search pops the end *)
  Definition at_end (ts : pos -> tile) : Prop := exists cl op p, TI Cost Weight w h (neighbor g) A0 s e ts cl op p [] /\ In e op /\
    (forall y, In y op -> weight (ts y) <= weight (ts e)) /\ Q ts cl op.
  (** the state in which it does so, and what became of it *)
  Definition ended (multi : bool) (g' : graph) : Prop :=
    (s = e /\ (multi = true -> pathlist g' = sortPaths [[e; e]])) \/
    exists g2, s <> e /\ dimX g2 = w /\ dimY g2 = h /\ neighbor g2 = neighbor g /\ at_end (tiles g2) /\
      (multi = true -> exists ps, multiPath (S (area g2)) g2 e s [e] = Some ps /\ pathlist g' = sortPaths ps) /\
      (forall p, In p (pathlist g') -> multi = false -> steep Cost e -> moves p <= cost (tiles g2 e)).
  Theorem search_ok (Fair : fair (neighbor g)) multi : exists g' b, search Cost Weight sortPaths multi g = Some (g', ABool b) /\
    (b = true <-> exists l, route (neighbor g) (open_tile g s e) s l e) /\
    (b = true -> ended multi g' /\
      if multi then exists ps, pathlist g' = sortPaths ps /\ ps <> [] /\
         forall r, In r ps -> exists l, r = e :: l /\ route (neighbor g) (open_tile g s e) e l s /\ NoDup l
      else exists p, pathlist g' = [p] /\ route (neighbor g) (open_tile g s e) e p s /\ NoDup p).
  Proof.
    destruct (search_unfold multi g sp ep Hsp Hep Hidle Ws We) as (h0 & Hh & _ & ->).
    set (g1 := G w h _ _ _ _ _ _). destruct (pos_dec s e) as [Ese|Hse].
    { (* the start is the end *)
      assert (Rt : route (neighbor g) (open_tile g s e) e [e] s). { rewrite Ese. constructor. split; auto. }
      cbn [loop]. destruct (HI_pop _ _ _ Hh) as [(X & _)|(h' & x & op' & E & H' & Hp & _)]; [discriminate|].
      replace (tiles g1) with (marked g s e) by reflexivity. replace (openHeap g1) with h0 by reflexivity. rewrite E.
      apply Permutation_length_1_inv in Hp. injection Hp as -> ->. cbv zeta. rewrite Ese, peqb_refl. destruct multi.
      - cbn [multiPath]. rewrite peqb_refl. eexists. exists true. split; [reflexivity|]. split.
        + split; [intros _|auto]. exists [e]. rewrite <- Ese at 2. rewrite Ese. constructor. split; auto.
        + intros _. split; [left; split; [exact Ese|reflexivity]|]. exists [[e] ++ [e]]. split; [reflexivity|]. split; [discriminate|]. intros r [<-|[]]. exists [e].
          split; [reflexivity|]. split; [rewrite Ese in Rt; exact Rt|constructor; [auto|constructor]].
      - assert (X : forall n gg, singlePath n gg e e [e] = Some [e]) by (intros [|n] gg; cbn [singlePath]; rewrite peqb_refl; auto).
        rewrite X. eexists. exists true. split; [reflexivity|]. split.
        + split; [intros _|auto]. exists [e]. rewrite <- Ese at 2. rewrite Ese. constructor. split; auto.
        + intros _. split; [left; split; [exact Ese|discriminate]|]. exists [e]. split; [reflexivity|]. split; [rewrite Ese in Rt; exact Rt|constructor; [auto|constructor]]. }
    assert (As : A0 s <> BLOCK). { unfold A0, marked, upd. rewrite (peqb_neq s e), peqb_refl by auto. discriminate. }
    assert (Ae : A0 e <> BLOCK). { unfold A0, marked, upd. rewrite peqb_refl. discriminate. }
    assert (Rt : forall a l b, route (neighbor g) (AstarProofs.free w h A0) a l b -> route (neighbor g) (open_tile g s e) a l b).
    { intros a l b. apply route_mono. intros p. apply A0_free. }
    destruct (loop_ok Cost Weight sortPaths w h (neighbor g) A0 s e Ws As Hse (Up Hse) (Up_end Hse) Q (HQ Hse) multi (S (S (area g))) g1 [] [s] s
      eq_refl eq_refl eq_refl eq_refl (init_TI Hse) Hh Q0) as [(g2 & cl & E & I & _)|(g2 & cl & op & q & E & F1 & F2 & F3 & I & Hin & Hmax & HQe)].
    { cbn [length]. unfold area. lia. }
    - rewrite E. eexists. exists false. split; [reflexivity|]. split; [|discriminate]. split; [discriminate|]. intros (l & Hl). exfalso.
      assert (X : In e cl).
      { eapply (closed_all Cost Weight w h (neighbor g) A0 s e); [exact I| |]; [eapply route_mono; [|exact Hl]; intros p; apply A0_free|].
        pose proof (ti_start _ _ _ _ _ _ _ _ _ _ _ _ _ I) as Y. rewrite app_nil_r in Y. exact Y. }
      apply (ti_end _ _ _ _ _ _ _ _ _ _ _ _ _ I). auto.
    - rewrite E. unfold found. assert (HeV : In e (cl ++ op)) by (apply in_or_app; auto).
      assert (Hreach : exists l, route (neighbor g) (open_tile g s e) s l e).
      { destruct (visited_route Cost Weight w h (neighbor g) A0 s e Ws As (Up Hse) (Up_end Hse) _ _ _ _ _ I e HeV) as (l & Hl). eauto. }
      assert (Hen : enough e g2 cl op e (area g2)) by (unfold enough; destruct (pos_dec e e); [lia|contradiction]).
      destruct multi.
      + destruct (multiPath_ok Cost Weight sortPaths w h (neighbor g) A0 s e (Up Hse) (Up_end Hse) g2 cl op q F1 F2 F3 I Fair (area g2) e [e] HeV) as (ps & E2 & N & P2); [lia|auto|].
        rewrite E2. eexists. exists true. split; [reflexivity|]. split; [tauto|]. intros _. split.
        { right. exists g2. split; auto. split; auto. split; auto. split; auto. split; [exists cl, op, q; auto|]. split; [intros _; exists ps; auto|discriminate]. }
        exists ps. split; [reflexivity|]. split; auto. intros r Hr. destruct (P2 r Hr) as (l & -> & Hl). exists l. split; [reflexivity|].
        split; [apply Rt; eapply falls_route; eauto|eapply (falls_nodup Cost w h (neighbor g) A0 s e Hse (Up Hse) (Up_end Hse) g2 cl op q); eauto].
      + destruct (singlePath_ok Cost Weight w h (neighbor g) A0 s e (Up Hse) (Up_end Hse) g2 cl op q F1 F2 F3 I Fair (area g2) e [e] HeV) as (l & E2 & P2); [lia|auto|].
        rewrite E2. eexists. exists true. split; [reflexivity|]. split; [tauto|]. intros _. split.
        * right. exists g2. split; auto. split; auto. split; auto. split; auto. split; [exists cl, op, q; auto|]. split; [discriminate|]. intros p Hp _ St. cbn in Hp. destruct Hp as [<-|[]]. eapply (falls_length Cost Weight w h (neighbor g) A0 s e (Up Hse) (Up_end Hse)); eauto.
        * exists (e :: l). split; [reflexivity|]. split; [apply Rt; eapply falls_route; eauto|eapply (falls_nodup Cost w h (neighbor g) A0 s e Hse (Up Hse) (Up_end Hse) g2 cl op q); eauto].
  Qed.
End Search.

(** ** costs when the rectangle between start and end is open *)
Lemma abs_ok v : - 2 ^ 31 <= v < 2 ^ 31 -> abs v = Z.abs v.
Proof.
  intros H. unfold abs. rewrite Z.shiftr_div_pow2 by lia. destruct (Z.le_gt_cases 0 v).
  - rewrite Z.div_small by lia. rewrite Z.lxor_0_r. lia.
  - replace (v / 2 ^ 31) with (-1) by (apply Z.div_unique with (v + 2 ^ 31); lia).
    rewrite Z.lxor_m1_r. unfold Z.lnot. lia.
Qed.
Lemma simple_par Weight w h e8 A s e ts cl op p todo : fair e8 -> TI SimpleCost Weight w h e8 A s e ts cl op p todo -> forall q, In q (cl ++ op) -> q <> s ->
  exists c, In c cl /\ adjacent e8 q c /\ cost (ts q) = cost (ts c) + 1 /\ first_popped e8 cl q c.
Proof.
  intros Fe I q Hq Hqs. destruct (ti_par _ _ _ _ _ _ _ _ _ _ _ _ _ I q Hq Hqs) as (c & Hc & Ha & _ & _ & (g0 & G1 & G2) & F).
  exists c. split; auto. split; [now apply adjacent_sym|]. split; auto. rewrite G2. unfold SimpleCost. rewrite G1. reflexivity.
Qed.
Section Straight.
  Context (w h : Z) (A : pos -> Z) (s e : pos) (Ws : within w h s) (We : within w h e) (Hw : w <= 2 ^ 31) (Hh : h <= 2 ^ 31).
  Context (Open : forall p, between s e p -> A p <> BLOCK).
  Notation F := (manhattan s e).
  Notation TI := (TI SimpleCost SimpleWeight w h Four A s e).
  Lemma cost_far ts cl op p todo : TI ts cl op p todo -> forall q, In q (cl ++ op) -> manhattan s q <= cost (ts q).
  Proof.
    intros I. assert (G : forall n q, In q (cl ++ op) -> (Z.to_nat (cost (ts q)) < n)%nat -> manhattan s q <= cost (ts q)).
    { induction n as [|n IH]; intros q Hq Hn; [lia|]. destruct (pos_dec q s) as [->|Hqs].
      - rewrite (ti_zero _ _ _ _ _ _ _ _ _ _ _ _ _ I). unfold manhattan. lia.
      - destruct (simple_par _ _ _ _ _ _ _ _ _ _ _ _ (Logic.I : fair Four) I q Hq Hqs) as (c & Hc & Ha & E & _). assert (Hc' : In c (cl ++ op)) by (apply in_or_app; auto).
        pose proof (ti_pos _ _ _ _ _ _ _ _ _ _ _ _ _ I c Hc'). assert (L : manhattan s c <= cost (ts c)) by (apply IH; [auto|lia]).
        unfold adjacent in Ha. unfold manhattan in *. lia. }
    intros q Hq. eapply G; eauto.
  Qed.
  Lemma least (f : pos -> Z) (l : list pos) : l <> [] -> exists c, In c l /\ forall d, In d l -> f c <= f d.
  Proof.
    induction l as [|a l IH]; intros H; [contradiction|]. destruct l as [|b l].
    - exists a. split; [now left|]. intros d [<-|[]]. lia.
    - destruct IH as (c & Hc & Hm); [discriminate|]. destruct (Z.le_gt_cases (f a) (f c)).
      + exists a. split; [now left|]. intros d [<-|Hd]; [lia|]. specialize (Hm d Hd). lia.
      + exists c. split; [now right|]. intros d [<-|Hd]; [lia|auto].
  Qed.
  Definition straight (ts : pos -> tile) (cl : list pos) : Prop := forall c, In c cl -> cost (ts c) + manhattan c e = F.
  Lemma some_straight ts cl op p : TI ts cl op p [] -> cl <> [] -> straight ts cl ->
    exists y, In y op /\ cost (ts y) + manhattan y e = F.
  Proof.
    intros I Hne Hcl. destruct (least (fun c => manhattan c e) cl Hne) as (c & Hc & Hmin).
    assert (Hce : c <> e). { intros ->. apply (ti_end _ _ _ _ _ _ _ _ _ _ _ _ _ I). auto. }
    pose proof (Hcl c Hc) as Hf. pose proof (cost_far _ _ _ _ _ I c (in_or_app _ _ _ (or_introl Hc))) as Hfar.
    assert (Hn : exists n, adjacent Four c n /\ manhattan n e = manhattan c e - 1 /\ between s e n).
    { destruct c as [cx cy], s as [sx sy], e as [ex ey]. unfold manhattan, adjacent, between in *. cbn [fst snd] in *.
      destruct (Z.lt_trichotomy cx ex) as [X|[X|X]].
      - exists (cx + 1, cy). cbn [fst snd]. lia.
      - destruct (Z.lt_trichotomy cy ey) as [Y|[Y|Y]].
        + exists (cx, cy + 1). cbn [fst snd]. lia.
        + destruct Hce. congruence.
        + exists (cx, cy - 1). cbn [fst snd]. lia.
      - exists (cx - 1, cy). cbn [fst snd]. lia. }
    destruct Hn as (n & Ha & Hm & Hb). assert (Wn : within w h n) by (unfold within, between in *; lia).
    destruct (ti_closed _ _ _ _ _ _ _ _ _ _ _ _ _ I c n Hc Wn Ha (Open n Hb)) as [Cn|(_ & [])].
    assert (Vn : In n (cl ++ op)) by (apply (ti_all _ _ _ _ _ _ _ _ _ _ _ _ _ I); auto).
    exists n. apply in_app_or in Vn as Vn'. destruct Vn' as [X|X]; [specialize (Hmin n X); cbv beta in Hmin; lia|]. split; auto.
    destruct (pos_dec n s) as [->|Hns].
    { rewrite (ti_zero _ _ _ _ _ _ _ _ _ _ _ _ _ I). lia. }
    destruct (simple_par _ _ _ _ _ _ _ _ _ _ _ _ (Logic.I : fair Four) I n Vn Hns) as (d & Hd & Had & E & _). specialize (Hmin d Hd). cbv beta in Hmin. pose proof (Hcl d Hd) as Hfd.
    rewrite E. unfold adjacent in Had. unfold manhattan in *. lia.
  Qed.
  Lemma straight_pop ts cl op p x op' : TI ts cl op p [] -> Permutation op (x :: op') ->
     (forall y, In y op -> weight (ts y) <= weight (ts x)) -> straight ts cl -> straight ts (x :: cl).
  Proof.
    intros I Hp M Hcl c Hc. destruct Hc as [<-|Hc]; [|auto].
    assert (Hx : In x op) by (apply (Permutation_in _ (Permutation_sym Hp)); now left).
    destruct (pos_dec x s) as [->|Hxs]. { rewrite (ti_zero _ _ _ _ _ _ _ _ _ _ _ _ _ I). lia. }
    assert (Vx : In x (cl ++ op)) by (apply in_or_app; auto).
    destruct (simple_par _ _ _ _ _ _ _ _ _ _ _ _ (Logic.I : fair Four) I x Vx Hxs) as (d & Hd & Had & E & _).
    assert (Hlow : F <= cost (ts x) + manhattan x e).
    { rewrite E. pose proof (Hcl d Hd). unfold adjacent in Had. unfold manhattan in *. lia. }
    destruct (some_straight ts cl op p I) as (y & Hy & Hyf); auto. { intros ->. destruct Hd. }
    assert (Hys : y <> s). { intros ->. apply (ti_first _ _ _ _ _ _ _ _ _ _ _ _ _ I) in Hy. subst op. destruct Hx as [<-|[]]. auto. }
    specialize (M y Hy). assert (Wt : forall z, In z op -> z <> s -> weight (ts z) = - (abs (fst z - fst e) + abs (snd z - snd e) + cost (ts z))).
    { intros z Hz Hzs. destruct (ti_weight _ _ _ _ _ _ _ _ _ _ _ _ _ I z Hz Hzs) as (g0 & c & G1 & G2 & ->). unfold SimpleWeight.
      destruct (finish g0) as [e0|]; [|discriminate]. injection G1 as ->. rewrite G2. reflexivity. }
    rewrite !Wt in M by auto.
    assert (Wx : within w h x) by (eapply within_in; eauto). assert (Wy : within w h y).
    { eapply within_in; eauto. apply in_or_app; auto. }
    unfold within in *. rewrite !abs_ok in M by lia. unfold manhattan in *. lia.
  Qed.
  Lemma straight_step ts ts' cl op p x op' op2 : TI ts cl op p [] -> Permutation op (x :: op') ->
     (forall y, In y op -> weight (ts y) <= weight (ts x)) -> straight ts cl -> TI ts' (x :: cl) op2 p [] ->
     (forall q, In q (cl ++ op) -> ts' q = ts q /\ In q (x :: cl ++ op2)) -> straight ts' (x :: cl).
  Proof.
    intros I Hp M Hcl _ Same c Hc. destruct (Same c) as (-> & _).
    - apply in_or_app. destruct Hc as [<-|Hc]; auto. right. apply (Permutation_in _ (Permutation_sym Hp)). now left.
    - eapply straight_pop; eauto.
  Qed.
End Straight.

(** ** Costs when the weight is the cost: tiles are popped in the order of their distance *)
Section Wave.
  Context (Weight : graph -> pos -> pos -> Z) (Hweight : forall g n p, Weight g n p = - cost (tiles g n)).
  Context (w h : Z) (e8 : dirs) (Fe : fair e8) (A : pos -> Z) (s e : pos).
  Notation TI := (TI SimpleCost Weight w h e8 A s e).
  Notation free := (AstarProofs.free w h A).
  (** popped in the order of costs; everything open costs no less, and at most one more *)
  Definition wave (ts : pos -> tile) (cl op : list pos) : Prop :=
    (forall l1 c l2, cl = l1 ++ c :: l2 -> forall d, In d l2 -> cost (ts d) <= cost (ts c)) /\
    (forall c q, In c cl -> In q op -> cost (ts c) <= cost (ts q)).
  Lemma wave_weight ts cl op p : TI ts cl op p [] -> forall x y, In x op -> In y op -> weight (ts y) <= weight (ts x) -> cost (ts x) <= cost (ts y).
  Proof.
    intros I x y Hx Hy M. destruct (in_dec pos_dec s op) as [Hs|Hs].
    - apply (ti_first _ _ _ _ _ _ _ _ _ _ _ _ _ I) in Hs. subst op. destruct Hx as [<-|[]], Hy as [<-|[]]. lia.
    - assert (Wt : forall z, In z op -> weight (ts z) = - cost (ts z)).
      { intros z Hz. destruct (ti_weight _ _ _ _ _ _ _ _ _ _ _ _ _ I z Hz) as (g0 & c & _ & G2 & ->); [intros ->; auto|]. rewrite Hweight, G2. reflexivity. }
      rewrite !Wt in M by auto. lia.
  Qed.
  Lemma wave_step ts ts' cl op p x op' op2 : TI ts cl op p [] -> Permutation op (x :: op') ->
     (forall y, In y op -> weight (ts y) <= weight (ts x)) -> wave ts cl op -> TI ts' (x :: cl) op2 p [] ->
     (forall q, In q (cl ++ op) -> ts' q = ts q /\ In q (x :: cl ++ op2)) -> wave ts' (x :: cl) op2.
  Proof.
    intros I Hp M (W1 & W2) I' Same.
    assert (Hx : In x op) by (apply (Permutation_in _ (Permutation_sym Hp)); now left).
    assert (Eq : forall q, In q (x :: cl) -> ts' q = ts q). { intros q [<-|Hq]; apply Same; apply in_or_app; auto. }
    assert (L : forall c, In c (x :: cl) -> cost (ts c) <= cost (ts x)). { intros c [<-|Hc]; [lia|auto]. }
    split.
    - intros [|y l1] c l2 E d Hd; cbn in E; injection E as E1 E2.
      + subst x l2. rewrite !Eq by (cbn; auto). apply L. now right.
      + assert (X : forall q, In q (c :: l2) -> In q (x :: cl)) by (intros q Hq; rewrite E2; right; apply in_or_app; auto).
        rewrite !Eq by (apply X; cbn; auto). apply (W1 l1 c l2); auto.
    - intros c q Hc Hq. rewrite (Eq c) by auto. specialize (L c Hc).
      assert (Vq : In q ((x :: cl) ++ op2)) by (apply in_or_app; auto).
      destruct (in_dec pos_dec q (cl ++ op)) as [Hi|Hi].
      + destruct (Same q Hi) as (-> & _). apply in_app_or in Hi as [Hi|Hi].
        * exfalso. pose proof (ti_nodup _ _ _ _ _ _ _ _ _ _ _ _ _ I') as Nd. cbn in Nd. inversion Nd as [|? ? _ Nd']; subst.
          revert Nd' Hi Hq. clear. induction cl as [|a cl IH]; cbn; [intros _ []|]. intros Nd [->|Hi] Hq; inversion Nd; subst; [|apply IH; auto].
          apply H1. apply in_or_app. auto.
        * pose proof (wave_weight _ _ _ _ I x q Hx Hi (M q Hi)). lia.
      + assert (Hqs : q <> s). { intros ->. apply Hi. eapply ti_start; eauto. }
        destruct (simple_par _ _ _ _ _ _ _ _ _ _ _ _ Fe I' q Vq Hqs) as (d & Hd & Ha & E & _). destruct Hd as [<-|Hd].
        * rewrite E, (Eq x) by (now left). lia.
        * exfalso. apply Hi. apply (ti_all _ _ _ _ _ _ _ _ _ _ _ _ _ I). pose proof (within_in _ _ _ _ _ _ _ _ _ _ _ _ _ _ I' Vq) as Wq. split; auto.
          destruct (ti_closed _ _ _ _ _ _ _ _ _ _ _ _ _ I d q Hd Wq) as [X|(_ & [])]; auto; [now apply adjacent_sym|].
          eapply ti_free; eauto.
  Qed.
  Lemma wave_near ts cl op p : TI ts cl op p [] -> wave ts cl op -> forall c q, In c cl -> In q (cl ++ op) -> adjacent e8 c q -> cost (ts q) <= cost (ts c) + 1.
  Proof.
    intros I (W1 & W2) c q Hc Hq Ha. destruct (pos_dec q s) as [->|Hqs].
    { rewrite (ti_zero _ _ _ _ _ _ _ _ _ _ _ _ _ I). pose proof (ti_pos _ _ _ _ _ _ _ _ _ _ _ _ _ I c ltac:(apply in_or_app; auto)). lia. }
    destruct (simple_par _ _ _ _ _ _ _ _ _ _ _ _ Fe I q Hq Hqs) as (d & Hd & _ & E & l1 & l2 & E1 & F). rewrite E. rewrite E1 in Hc.
    apply in_app_or in Hc as [Hc|[<-|Hc]]; [|lia|destruct (F c Hc Ha)].
    apply in_split in Hc as (m1 & m2 & ->). rewrite <- app_assoc in E1. specialize (W1 _ _ _ E1 d). assert (cost (ts d) <= cost (ts c)); [|lia].
    apply W1. apply in_or_app. right. now left.
  Qed.
  (** the next tile popped is no farther away than its cost *)
  Lemma wave_dist ts cl op p x : TI ts cl op p [] -> wave ts cl op -> In x op -> (forall y, In y op -> weight (ts y) <= weight (ts x)) ->
    forall l, route e8 free s l x -> cost (ts x) <= moves l.
  Proof.
    intros I W Hx M l Hl.
    assert (G : forall a l b, route e8 free a l b -> In a (cl ++ op) -> (exists y, In y op /\ cost (ts y) <= cost (ts a) + moves l) \/ In b cl).
    { clear l Hl. intros a l b. unfold moves. induction 1 as [a Fa|a c b l Fa Ha Hr IH]; intros Hv; cbn [length].
      - apply in_app_or in Hv as [Hv|Hv]; [auto|]. left. exists a. split; auto. lia.
      - apply in_app_or in Hv as [Hv|Hv]; [|left; exists a; split; auto; lia].
        assert (Fc : free c) by (inversion Hr; auto). destruct Fc as (F1 & F2).
        destruct (ti_closed _ _ _ _ _ _ _ _ _ _ _ _ _ I a c Hv F1 Ha F2) as [X|(_ & [])].
        assert (Vc : In c (cl ++ op)) by (apply (ti_all _ _ _ _ _ _ _ _ _ _ _ _ _ I); auto).
        pose proof (wave_near _ _ _ _ I W a c Hv Vc Ha).
        destruct (IH Vc) as [(y & Y1 & Y2)|Y]; [left; exists y; split; auto; lia|auto]. }
    destruct (G s l x Hl (ti_start _ _ _ _ _ _ _ _ _ _ _ _ _ I)) as [(y & Y1 & Y2)|Y].
    - rewrite (ti_zero _ _ _ _ _ _ _ _ _ _ _ _ _ I) in Y2. pose proof (wave_weight _ _ _ _ I x y Hx Y1 (M y Y1)). lia.
    - exfalso. pose proof (ti_nodup _ _ _ _ _ _ _ _ _ _ _ _ _ I) as Nd. revert Nd Y Hx. clear. induction cl as [|a cl IH]; cbn; [intros _ []|].
      intros Nd [->|Hi] Hq; inversion Nd; subst; [|apply IH; auto]. apply H1. apply in_or_app. auto.
  Qed.
  (** ** the ways back *)
  Lemma route_front a l b : route e8 free a l b -> exists l', l = a :: l'.
  Proof. destruct 1; eauto. Qed.
  Lemma route_rev a l b : route e8 free a l b -> route e8 free b (rev l) a.
  Proof.
    induction 1 as [a Ha|a c b l Ha Hadj Hr IH]; cbn [rev]; [constructor; auto|]. apply route_snoc with c; auto. now apply adjacent_sym.
  Qed.
  Lemma moves_rev (l : list pos) : moves (rev l) = moves l.
  Proof. unfold moves. now rewrite rev_length. Qed.
  Section Ways.
    Context (g : graph) (cl op : list pos) (p : pos) (D1 : dimX g = w) (D2 : dimY g = h) (D3 : neighbor g = e8).
    Context (I : TI (tiles g) cl op p []) (W : wave (tiles g) cl op) (He : In e op) (M : forall y, In y op -> weight (tiles g y) <= weight (tiles g e)).
    Notation V := (cl ++ op). Notation C q := (cost (tiles g q)).
    Lemma open_high y : In y op -> C e <= C y.
    Proof. intros Hy. apply (wave_weight _ _ _ _ I e y He Hy (M y Hy)). Qed.
    (** what is nearer than the end has been popped, and its cost is no more than its distance *)
    Lemma near_popped a l b : route e8 free a l b -> In a cl -> C a + moves l < C e -> In b cl /\ C b <= C a + moves l.
    Proof.
      unfold moves. induction 1 as [a Ha|a c b l Ha Hadj Hr IH]; intros Hin Hlt; cbn [length] in *; [split; auto; lia|].
      assert (Fc : free c) by (inversion Hr; auto). destruct Fc as (F1 & F2).
      destruct (ti_closed _ _ _ _ _ _ _ _ _ _ _ _ _ I a c Hin F1 Hadj F2) as [X|(_ & [])].
      assert (Vc : In c V) by (apply (ti_all _ _ _ _ _ _ _ _ _ _ _ _ _ I); auto).
      pose proof (wave_near _ _ _ _ I W a c Hin Vc Hadj) as Hn. destruct (route_front _ _ _ Hr) as (l' & ->). cbn [length] in *.
      apply in_app_or in Vc as [Vc|Vc]; [|pose proof (open_high c Vc); lia]. destruct IH as (B1 & B2); auto; [lia|]. split; auto. lia.
    Qed.
    Lemma min_iff q : In q V -> q <> s -> C q <= C e -> forall m, In m (minCostTiles g q) <-> In m V /\ adjacent e8 q m /\ C m = C q - 1.
    Proof.
      intros Hq Hqs Hle. destruct (simple_par _ _ _ _ _ _ _ _ _ _ _ _ Fe I q Hq Hqs) as (c & Hc & Ha & E & _).
      assert (Hc' : In c V) by (apply in_or_app; auto).
      assert (Vis : forall m, In m (GetNeighbor g q) /\ isCount (tiles g m) = true <-> In m V /\ adjacent e8 q m).
      { intros m. rewrite neighbor_ok, D1, D2, D3, (ti_all _ _ _ _ _ _ _ _ _ _ _ _ _ I). tauto. }
      assert (Low : forall m, In m V -> adjacent e8 q m -> C q - 1 <= C m).
      { intros m Hm Hma. apply in_app_or in Hm as [Hm|Hm]; [pose proof (wave_near _ _ _ _ I W m q Hm Hq (adjacent_sym _ _ _ Fe Hma)); lia|pose proof (open_high m Hm); lia]. }
      destruct (mins_fold g (GetNeighbor g q) q []) as (A1 & A2 & A3 & _). pose proof (mins_member g (GetNeighbor g q) q []) as A5. cbv zeta in A5.
      fold (minCostTiles g q) in A2, A3. set (f := fst _) in *.
      assert (Ef : C f = C q - 1).
      { destruct (proj2 (Vis c) (conj Hc' Ha)) as (X1 & X2). destruct (A2 c X1 X2) as (Y & _). destruct A5 as [Z'|Z'].
        - rewrite Z' in Y. lia.
        - apply Vis in Z' as (Z1 & Z2). specialize (Low _ Z1 Z2). lia. }
      intros m. split.
      - intros Hm. destruct (A3 m Hm) as [([] & _)|(X & Y & Z')]. destruct (proj1 (Vis m) (conj X Y)). split; auto. split; auto. lia.
      - intros (X & Y & Z'). destruct (proj2 (Vis m) (conj X Y)) as (X1 & X2). apply (A2 m X1 X2). lia.
    Qed.
    Lemma steps_iff q l : In q V -> C q <= C e -> (In q cl \/ q = e) -> (steps g s q l <-> route e8 free q l s /\ moves l = C q).
    Proof.
      intros Hq Hle Hc. assert (Fr : forall r, In r V -> free r).
      { intros r Hr. split; [eapply within_in; eauto|eapply ti_free; eauto]. }
      pose proof (ti_zero _ _ _ _ _ _ _ _ _ _ _ _ _ I) as Hz. split.
      - intros H. revert Hq Hle. clear Hc. unfold moves. induction H as [|q r l Hqs Hr Hl IH]; intros Hq Hle; [split; [constructor; auto|rewrite Hz; reflexivity]|].
        apply (min_iff q Hq Hqs Hle) in Hr as (R1 & R2 & R3). destruct IH as (I1 & I2); auto; [lia|]. split; [eapply route_step; eauto|]. cbn [length]. lia.
      - intros (H & Hm). revert Hq Hle Hc Hm. remember s as t eqn:Et. unfold moves. induction H as [a Ha|a c b l Ha Hadj Hr IH]; intros Hq Hle Hc Hm; [subst a; constructor|subst b].
        cbn [length] in Hm. destruct (route_front _ _ _ Hr) as (l' & El).
        assert (Has : a <> s). { intros ->. rewrite Hz in Hm. rewrite El in Hm. cbn [length] in Hm. lia. }
        assert (Hcs : In c cl /\ C c <= C s + moves (rev l)).
        { destruct (in_dec pos_dec s cl) as [Hs|Hs].
          - apply near_popped; [now apply route_rev|auto|]. rewrite Hz, moves_rev. unfold moves. lia.
          - pose proof (ti_start _ _ _ _ _ _ _ _ _ _ _ _ _ I) as X. apply in_app_or in X as [X|X]; [contradiction|].
            pose proof (open_high s X) as Y. rewrite Hz in Y. rewrite El in Hm. cbn [length] in Hm. lia. }
        destruct Hcs as (C1 & C2). rewrite Hz, moves_rev in C2. unfold moves in C2. assert (Vc : In c V) by (apply in_or_app; auto).
        pose proof (wave_near _ _ _ _ I W c a C1 Hq (adjacent_sym _ _ _ Fe Hadj)). apply steps_step with c; auto.
        + apply (min_iff a Hq Has Hle). split; auto. split; auto. lia.
        + apply IH; auto; lia.
    Qed.
    Lemma some_steps ps : multiPath (S (area g)) g e s [e] = Some ps -> ps <> [] -> forall r, In r ps <-> exists l, r = e :: l /\
      route e8 free e l s /\ forall l', route e8 free s l' e -> moves l <= moves l'.
    Proof.
      intros E N. apply multiPath_iff in E as (E & _). assert (Ve : In e V) by (apply in_or_app; auto).
      assert (X : forall l, steps g s e l <-> route e8 free e l s /\ moves l = C e) by (intros l; apply steps_iff; auto; lia).
      assert (Far : forall l', route e8 free s l' e -> C e <= moves l') by (apply (wave_dist _ _ _ _ _ I W He M)).
      intros r. rewrite E. split; intros (l & -> & Hl); exists l; (split; [reflexivity|]).
      - apply X in Hl as (H1 & H2). split; auto. intros l' Hl'. rewrite H2. auto.
      - apply X. destruct Hl as (H1 & H2). split; auto. destruct ps as [|r0 ps]; [contradiction|].
        destruct (proj1 (E r0) (or_introl eq_refl)) as (l0 & _ & Hl0). apply X in Hl0 as (H3 & H4).
        specialize (H2 _ (route_rev _ _ _ H3)). rewrite moves_rev in H2. pose proof (Far _ (route_rev _ _ _ H1)) as H5. rewrite moves_rev in H5. lia.
    Qed.
  End Ways.
End Wave.

(** SetStringTiles changes attributes and targets only *)
Lemma setRow_frame line : forall g y x g' ok, setRow g y x line = (g', ok) ->
  dimX g' = dimX g /\ dimY g' = dimY g /\ neighbor g' = neighbor g /\ pathlist g' = pathlist g /\ openHeap g' = openHeap g /\
  forall p, cost (tiles g' p) = cost (tiles g p) /\ weight (tiles g' p) = weight (tiles g p) /\ isCount (tiles g' p) = isCount (tiles g p).
Proof.
  induction line as [|a line IH]; intros g y x g' ok E; cbn [setRow] in E; [injection E as <- <-; repeat split; auto|].
  destruct (dimX g <=? x); [injection E as <- <-; repeat split; auto|].
  destruct (a =? START); [apply IH in E; exact E|]. destruct (a =? END); [apply IH in E; exact E|].
  destruct (_ || _); [apply IH in E; exact E|]. destruct (a =? SKIP); [apply IH in E; exact E|].
  destruct (inside g (x, y)); [|injection E as <- <-; repeat split; auto]. apply IH in E as (E1 & E2 & E3 & E4 & E5 & E6). do 5 (split; [assumption|]).
  intros p. destruct (E6 p) as (X1 & X2 & X3). rewrite X1, X2, X3. cbn [with_tiles tiles]. unfold upd. destruct (peqb p (x, y)) eqn:Q; auto.
  apply peqb_eq in Q as ->. auto.
Qed.
Lemma setRows_frame lines : forall g y g' ok, setRows g y lines = (g', ok) ->
  dimX g' = dimX g /\ dimY g' = dimY g /\ neighbor g' = neighbor g /\ pathlist g' = pathlist g /\ openHeap g' = openHeap g /\
  forall p, cost (tiles g' p) = cost (tiles g p) /\ weight (tiles g' p) = weight (tiles g p) /\ isCount (tiles g' p) = isCount (tiles g p).
Proof.
  induction lines as [|l lines IH]; intros g y g' ok E; cbn [setRows] in E; [injection E as <- <-; repeat split; auto|].
  destruct l as [|c l]; [eapply IH; eauto|]. destruct (setRow g y 0 (c :: l)) as [g1 ok1] eqn:E1. apply setRow_frame in E1 as (A1 & A2 & A3 & A4 & A5 & A6).
  destruct ok1; [|injection E as <- <-; do 5 (split; [assumption|]); exact A6]. apply IH in E as (B1 & B2 & B3 & B4 & B5 & B6). do 5 (split; [congruence|]).
  intros p. destruct (A6 p) as (X1 & X2 & X3), (B6 p) as (Y1 & Y2 & Y3). repeat split; congruence.
Qed.
