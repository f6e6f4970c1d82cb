(** Reading and printing grids: proofs. *)
From Verif Require Import Base Bind AstarSpec AstarModel AstarProofs AstarMore.
Local Open Scope Z_scope.

(** ** lines *)
Definition no_nl (l : list Z) : Prop := ~ In 10 l.
Lemma pieces_cut s : exists l ls, pieces s = l :: ls /\ no_nl l /\ ((ls = [] /\ s = l) \/ exists s', ls = pieces s' /\ s = l ++ 10 :: s').
Proof.
  induction s as [|c s (l & ls & E & Hl & H)]; cbn [pieces]; [exists [], []; repeat split; auto; intros []|].
  destruct (Z.eqb_spec c 10) as [->|N].
  - exists [], (pieces s). split; auto. split; [intros []|]. right. exists s. auto.
  - rewrite E. exists (c :: l), ls. split; auto. split; [intros [X|X]; [congruence|now apply Hl]|].
    destruct H as [(-> & ->)|(s' & -> & ->)]; [left; auto|right; exists s'; auto].
Qed.
Lemma pieces_app l s : no_nl l -> pieces (l ++ 10 :: s) = l :: pieces s.
Proof.
  induction l as [|c l IH]; intros H; cbn [pieces app]; [reflexivity|].
  destruct (Z.eqb_spec c 10) as [->|N]; [destruct H; now left|]. rewrite IH; [reflexivity|]. intros X. apply H. now right.
Qed.
Lemma upToNL_none l : no_nl l -> upToNL l = None.
Proof.
  induction l as [|c l IH]; intros H; cbn [upToNL]; auto. unfold NL. destruct (Z.eqb_spec c 10) as [->|N]; [destruct H; now left|]. rewrite IH; auto. intros X. apply H. now right.
Qed.
Lemma upToNL_app l s : no_nl l -> upToNL (l ++ 10 :: s) = Some l.
Proof.
  induction l as [|c l IH]; intros H; cbn [upToNL app]; auto. unfold NL. destruct (Z.eqb_spec c 10) as [->|N]; [destruct H; now left|]. rewrite IH; auto. intros X. apply H. now right.
Qed.
Lemma dropCR_ok l : fst (dropCR l) = no_return l.
Proof.
  unfold dropCR, no_return. destruct (rev l) as [|c r] eqn:Er; auto. unfold CR. destruct (Z.eqb_spec c 13) as [->|N].
  - cbn [fst]. rewrite <- (rev_involutive l), Er. cbn [rev]. now rewrite removelast_last.
  - cbn [fst]. destruct c as [|p|p]; auto. repeat (destruct p as [p|p|]; auto). congruence.
Qed.
Lemma lines_of_cons l ls : ls <> [] -> lines_of (l :: ls) = no_return l :: lines_of ls.
Proof. intros H. destruct ls; [congruence|]. destruct l; reflexivity. Qed.
Lemma pieces_ne s : pieces s <> []. Proof. destruct (pieces_cut s) as (l & ls & -> & _). discriminate. Qed.
Lemma readLines_nil fuel : readLines fuel [] = [].
Proof. destruct fuel; auto. Qed.
Lemma bufsize_Z : Z.of_nat bufsize = 4096. Proof. unfold bufsize. lia. Qed.
Lemma readLines_ok fuel : forall s, (length s <= fuel)%nat -> short_lines s -> readLines fuel s = text_lines s.
Proof.
  induction fuel as [|fuel IH]; intros s Hf Hs.
  - destruct s; [reflexivity|cbn in Hf; lia].
  - cbn [readLines]. unfold text_lines. destruct (pieces_cut s) as (l & ls & E & Hl & H). pose proof bufsize_Z as HB.
    assert (Hsh : Z.of_nat (length l) < 4096) by (apply Hs; rewrite E; now left). rewrite E. unfold readLine. destruct H as [(-> & ->)|(s' & -> & ->)].
    + rewrite firstn_all2 by lia. rewrite upToNL_none by auto. replace (bufsize <=? length l)%nat with false by (symmetry; apply Nat.leb_gt; lia).
      destruct l; [reflexivity|]. rewrite readLines_nil. reflexivity.
    + rewrite firstn_app. rewrite firstn_all2 by lia. destruct (bufsize - length l)%nat as [|n] eqn:En; [lia|]. cbn [firstn]. rewrite upToNL_app by auto.
      rewrite dropCR_ok. replace (skipn (S (length l)) (l ++ 10 :: s')) with s'.
      2:{ rewrite skipn_app. rewrite skipn_all2 by lia. replace (S (length l) - length l)%nat with 1%nat by lia. reflexivity. }
      rewrite lines_of_cons by apply pieces_ne. f_equal. apply IH.
      * rewrite app_length in Hf. cbn [length] in Hf. lia.
      * intros x Hx. apply Hs. rewrite E. now right.
Qed.
Lemma no_return_in c l : In c (no_return l) -> In c l.
Proof.
  unfold no_return. destruct (rev l) as [|c' r] eqn:Er; auto. assert (X : In c (rev r) -> In c l). { intros H. rewrite in_rev, Er. right. now apply in_rev. }
  destruct c' as [|p|p]; auto. repeat (destruct p as [p|p|]; auto).
Qed.
Lemma lines_in ps l : In l (lines_of ps) -> exists l', In l' ps /\ incl l l'.
Proof.
  induction ps as [|a ps IH]; [intros []|]. destruct ps as [|b ps].
  - destruct a; cbn; [intros []|]. intros [<-|[]]. eexists. split; [now left|]. intros x; auto.
  - rewrite lines_of_cons by discriminate. intros [<-|H].
    + exists a. split; [now left|]. intros x. apply no_return_in.
    + destruct (IH H) as (l' & H1 & H2). exists l'. split; [now right|auto].
Qed.
Lemma pieces_nl s l : In l (pieces s) -> no_nl l.
Proof.
  revert l. induction s as [|c s IH]; intros l; cbn [pieces]; [intros [<-|[]] []|]. destruct (Z.eqb_spec c 10) as [->|N].
  - intros [<-|H]; [intros []|auto].
  - destruct (pieces s) as [|a ps] eqn:E; [now apply pieces_ne in E|]. intros [<-|H]; [|apply IH; now right].
    intros [X|X]; [congruence|]. apply (IH a); [now left|auto].
Qed.
Lemma lines_nl s l : In l (text_lines s) -> no_nl l.
Proof. intros H. apply lines_in in H as (l' & H1 & H2). intros X. apply (pieces_nl s l' H1). auto. Qed.

(** ** the last of some positions *)
Definition or_else (o d : option pos) : option pos := match o with Some _ => o | None => d end.
Lemma is_last_ext (A B : pos -> Prop) o : (forall p, A p <-> B p) -> is_last A o -> is_last B o.
Proof. intros E. destruct o as [p|]; cbn; [intros (H1 & H2); split; [now apply E|intros q Hq; apply H2, E, Hq]|intros H p Hp; apply (H p), E, Hp]. Qed.
Lemma is_last_union (A B C : pos -> Prop) a b : is_last A a -> is_last B b -> (forall p q, A p -> B q -> not_after p q) -> (forall p, C p <-> A p \/ B p) ->
  is_last C (or_else b a).
Proof.
  intros Ha Hb HO HC. destruct b as [q|]; cbn [or_else].
  - destruct Hb as (H1 & H2). split; [apply HC; auto|]. intros p Hp. apply HC in Hp as [Hp|Hp]; auto.
  - destruct a as [p|]; [destruct Ha as (H1 & H2); split; [apply HC; auto|]; intros q Hq; apply HC in Hq as [Hq|Hq]; [auto|now apply Hb in Hq]|].
    intros p Hp. apply HC in Hp as [Hp|Hp]; [now apply Ha in Hp|now apply Hb in Hp].
Qed.
Lemma is_last_nil : is_last (fun _ => False) None. Proof. intros p []. Qed.

(** ** NewWithTiles *)
Lemma space_white c : space c = white c.
Proof. unfold space, white. cbn [existsb]. rewrite orb_false_r, !orb_assoc. reflexivity. Qed.
Lemma tilebuffer_ok text : short_lines text -> tilebuffer text = rows text.
Proof.
  intros H. unfold tilebuffer, rows. rewrite readLines_ok by auto. unfold not_nil. f_equal. apply map_ext. intros l. apply filter_ext. intros c. now rewrite space_white.
Qed.
Lemma letter_ok buf p : 0 <= fst p -> 0 <= snd p -> letter buf p = letter_at buf p.
Proof.
  intros H1 H2. unfold letter, letter_at. apply Z.leb_le in H1, H2. rewrite H1, H2. reflexivity.
Qed.
Lemma width_ok buf : Z.of_nat (fold_right (fun b m => Nat.max (length b) m) O buf) = width buf.
Proof. induction buf as [|b buf IH]; [reflexivity|]. cbn [fold_right width]. rewrite Nat2Z.inj_max, IH. reflexivity. Qed.
Lemma width_in r buf : In r buf -> Z.of_nat (length r) <= width buf.
Proof. induction buf as [|b buf IH]; [intros []|]. cbn [width fold_right]. intros [->|H]; [lia|]. apply IH in H. unfold width in H. lia. Qed.
Lemma letter_within buf p a : letter_at buf p = Some a -> within (width buf) (Z.of_nat (length buf)) p.
Proof.
  unfold letter_at, within. destruct (0 <=? fst p) eqn:E1, (0 <=? snd p) eqn:E2; cbn [andb]; try discriminate. apply Z.leb_le in E1, E2.
  destruct (nth_error buf _) as [r|] eqn:Er; [|discriminate]. intros Ea. assert (Z.to_nat (snd p) < length buf)%nat by (apply nth_error_Some; congruence).
  assert (Z.to_nat (fst p) < length r)%nat by (apply nth_error_Some; congruence). apply nth_error_In, width_in in Er. lia.
Qed.
(** the positions come in reading order *)
Lemma sorted_cells w h : StronglySorted not_after (cells w h).
Proof.
  unfold cells. generalize (Z.to_nat w), (Z.to_nat h). clear. intros w h. generalize 0%nat at 2 as k. induction h as [|h IH]; intros k; cbn [seq flat_map]; [constructor|].
  assert (Row : forall n i, StronglySorted not_after (map (fun x => (Z.of_nat x, Z.of_nat k)) (seq i n))).
  { induction n as [|n IHn]; intros i; cbn [seq map]; constructor; auto. apply Forall_forall. intros p Hp. apply in_map_iff in Hp as (x & <- & Hx). apply in_seq in Hx.
    right. cbn [fst snd]. lia. }
  assert (Hlow : Forall (fun q => Z.of_nat k < snd q) (flat_map (fun y => map (fun x => (Z.of_nat x, Z.of_nat y)) (seq 0 w)) (seq (S k) h))).
  { apply Forall_forall. intros q Hq. apply in_flat_map in Hq as (y & Hy & Hq). apply in_map_iff in Hq as (x & <- & _). apply in_seq in Hy. cbn [snd]. lia. }
  specialize (IH (S k)). revert Hlow IH. generalize (flat_map (fun y => map (fun x => (Z.of_nat x, Z.of_nat y)) (seq 0 w)) (seq (S k) h)) as B. intros B Hlow SB.
  assert (Hrow : Forall (fun p => snd p = Z.of_nat k) (map (fun x => (Z.of_nat x, Z.of_nat k)) (seq 0 w))).
  { apply Forall_forall. intros p Hp. apply in_map_iff in Hp as (x & <- & _). reflexivity. }
  specialize (Row w 0%nat). revert Hrow Row. generalize (map (fun x => (Z.of_nat x, Z.of_nat k)) (seq 0 w)) as A. induction A as [|a A IHA]; intros HA SA; cbn [app]; auto.
  inversion SA as [|? ? SA' F]; subst. apply Forall_cons_iff in HA as (Ha & HA). constructor; auto. apply Forall_app. split; auto. eapply Forall_impl; [|exact Hlow]. intros q Hq. left. cbn beta in Hq. lia.
Qed.
Lemma targetOf_last c buf : is_last (fun p => letter_at buf p = Some c) (option_map at_ (targetOf c buf (cells (width buf) (Z.of_nat (length buf))))).
Proof.
  assert (G : forall ps o, (forall p, In p ps -> 0 <= fst p /\ 0 <= snd p) -> StronglySorted not_after ps -> forall A, is_last A (option_map at_ o) -> (forall p q, A p -> In q ps -> not_after p q) ->
    is_last (fun p => A p \/ In p ps /\ letter_at buf p = Some c)
      (option_map at_ (fold_left (fun t p => match letter buf p with Some a => if a =? c then Some (P p 0) else t | None => t end) ps o))).
  { induction ps as [|p ps IH]; intros o Hn SS A HA HO; cbn [fold_left].
    - eapply is_last_ext; [|exact HA]. intros p. cbn [In]. tauto.
    - inversion SS as [|? ? SS' F]; subst. rewrite Forall_forall in F. destruct (Hn p) as (N1 & N2); [now left|]. rewrite letter_ok by auto.
      assert (K : forall q, In q ps -> 0 <= fst q /\ 0 <= snd q) by (intros; apply Hn; now right).
      destruct (letter_at buf p) as [a|] eqn:El; [destruct (Z.eqb_spec a c) as [->|Na]|].
      + eapply is_last_ext; [|apply (IH (Some (P p 0)) K SS' (fun q => A q \/ q = p))].
        * intros q. cbn [In]. split; [intros [[H| ->]|(H1 & H2)]; auto; right; split; auto|]. intros [H|([<-|H1] & H2)]; auto.
        * cbn [option_map at_]. split; auto. intros q [Hq| ->]; [apply HO; auto; now left|right; lia].
        * intros q r [Hq| ->] Hr; [apply HO; auto; now right|auto].
      + eapply is_last_ext; [|apply (IH o K SS' A HA)].
        * intros q. cbn [In]. split; [intros [H|(H1 & H2)]; auto|]. intros [H|([<-|H1] & H2)]; auto. congruence.
        * intros q r Hq Hr. apply HO; auto. now right.
      + eapply is_last_ext; [|apply (IH o K SS' A HA)].
        * intros q. cbn [In]. split; [intros [H|(H1 & H2)]; auto|]. intros [H|([<-|H1] & H2)]; auto. congruence.
        * intros q r Hq Hr. apply HO; auto. now right. }
  unfold targetOf. eapply is_last_ext; [|apply G with (ps := cells (width buf) (Z.of_nat (length buf))) (o := None) (A := fun _ => False)].
  - intros p. split; [intros [[]|(H1 & H2)]; exact H2|]. intros H. right. split; auto. apply in_cells. eapply letter_within; eauto.
  - intros p Hp. apply in_cells in Hp. unfold within in Hp. lia.
  - apply sorted_cells.
  - apply is_last_nil.
  - intros p q [].
Qed.
Lemma NewWithTiles_ok text : short_lines text -> let g := NewWithTiles text in let rs := rows text in
  dimX g = width rs /\ dimY g = Z.of_nat (length rs) /\
  (forall p, 0 <= fst p -> 0 <= snd p -> attr (tiles g p) = match letter_at rs p with Some a => if special a then 46 else a | None => 46 end) /\
  is_last (fun p => letter_at rs p = Some 115) (option_map at_ (start g)) /\ is_last (fun p => letter_at rs p = Some 101) (option_map at_ (finish g)).
Proof.
  intros H g rs. unfold g, NewWithTiles. rewrite tilebuffer_ok by auto. fold rs. cbn [dimX dimY tiles start finish]. rewrite width_ok. repeat split; auto.
  - intros p H1 H2. cbn [attr]. rewrite letter_ok by auto. unfold tileAttr. destruct (letter_at rs p) as [a|]; auto. unfold special, SKIP, START, END, PLAIN. cbn [existsb].
    rewrite orb_false_r, orb_assoc. reflexivity.
  - apply (targetOf_last START).
  - apply (targetOf_last END).
Qed.

(** ** SetStringTiles: the effect of the letters [L] *)
Definition overlay (c : option Z) (old : Z) : Z := match c with Some a => if special a then old else a | None => old end.
Record Eff (L : pos -> option Z) (g g' : graph) : Prop := {
  ef_x : dimX g' = dimX g; ef_y : dimY g' = dimY g;
  ef_attr : forall p, attr (tiles g' p) = overlay (L p) (attr (tiles g p));
  ef_start : exists o, is_last (fun p => L p = Some 115) o /\ option_map at_ (start g') = or_else o (option_map at_ (start g));
  ef_end : exists o, is_last (fun p => L p = Some 101) o /\ option_map at_ (finish g') = or_else o (option_map at_ (finish g)) }.
Lemma eff_nil g L : (forall p, L p = None) -> Eff L g g.
Proof.
  intros H. split; auto.
  - intros p. now rewrite H.
  - exists None. split; auto. intros p. rewrite H. discriminate.
  - exists None. split; auto. intros p. rewrite H. discriminate.
Qed.
Lemma eff_ext L L' g g' : (forall p, L p = L' p) -> Eff L g g' -> Eff L' g g'.
Proof.
  intros H [E1 E2 E3 (o & O1 & O2) (o' & O3 & O4)]. split; auto.
  - intros p. rewrite <- H. auto.
  - exists o. split; auto. eapply is_last_ext; [|exact O1]. intros p. cbn beta. now rewrite <- H.
  - exists o'. split; auto. eapply is_last_ext; [|exact O3]. intros p. cbn beta. now rewrite <- H.
Qed.
Lemma or_else_assoc b a d : or_else b (or_else a d) = or_else (or_else b a) d. Proof. now destruct b. Qed.
Lemma eff_seq L1 L2 g g1 g2 : (forall p q, L1 p <> None -> L2 q <> None -> not_after p q /\ p <> q) -> Eff L1 g g1 -> Eff L2 g1 g2 ->
  Eff (fun p => match L2 p with Some a => Some a | None => L1 p end) g g2.
Proof.
  intros HO [A1 A2 A3 (a & A4 & A5) (a' & A6 & A7)] [B1 B2 B3 (b & B4 & B5) (b' & B6 & B7)].
  assert (HU : forall c p, (match L2 p with Some a => Some a | None => L1 p end) = Some c <-> L1 p = Some c \/ L2 p = Some c).
  { intros c p. destruct (L2 p) as [x|] eqn:E2; [|split; [auto|intros [|]; congruence]]. split; [auto|]. intros [H|H]; [|exact H]. destruct (HO p p) as (_ & X); congruence. }
  split; try congruence.
  - intros p. rewrite B3, A3. destruct (L2 p) as [x|] eqn:E2; [|reflexivity]. destruct (L1 p) as [y|] eqn:E1; [destruct (HO p p) as (_ & X); congruence|reflexivity].
  - exists (or_else b a). split; [|rewrite B5, A5; apply or_else_assoc]. eapply is_last_union; [exact A4|exact B4| |apply HU]. intros p q Hp Hq. apply HO; congruence.
  - exists (or_else b' a'). split; [|rewrite B7, A7; apply or_else_assoc]. eapply is_last_union; [exact A6|exact B6| |apply HU]. intros p q Hp Hq. apply HO; congruence.
Qed.
Lemma peqb_refl p : peqb p p = true. Proof. now apply peqb_eq. Qed.
Definition only_at (q : pos) (a : Z) (p : pos) : option Z := if peqb p q then Some a else None.
Lemma only_last q a c : is_last (fun p => only_at q a p = Some c) (if a =? c then Some q else None).
Proof.
  unfold only_at. destruct (Z.eqb_spec a c) as [->|N].
  - split; [now rewrite peqb_refl|]. intros p. destruct (peqb p q) eqn:E; [|discriminate]. apply peqb_eq in E as ->. intros _. right. lia.
  - intros p. destruct (peqb p q); congruence.
Qed.
Lemma eff_letter g g' q a : dimX g' = dimX g -> dimY g' = dimY g ->
  (forall p, attr (tiles g' p) = if peqb p q then (if special a then attr (tiles g p) else a) else attr (tiles g p)) ->
  option_map at_ (start g') = (if a =? 115 then Some q else option_map at_ (start g)) -> option_map at_ (finish g') = (if a =? 101 then Some q else option_map at_ (finish g)) ->
  Eff (only_at q a) g g'.
Proof.
  intros H1 H2 H3 H4 H5. split; auto.
  - intros p. rewrite H3. unfold only_at. destruct (peqb p q); reflexivity.
  - eexists. split; [apply only_last|]. rewrite H4. destruct (a =? 115); reflexivity.
  - eexists. split; [apply only_last|]. rewrite H5. destruct (a =? 101); reflexivity.
Qed.

(** the letters [ls] of a row, from column [x] on *)
Definition rowL (w y x : Z) (ls : list Z) (p : pos) : option Z :=
  if (snd p =? y) && (x <=? fst p) && (fst p <? w) then nth_error ls (Z.to_nat (fst p - x)) else None.
Lemma rowL_cons w y x a ls p : x < w -> rowL w y x (a :: ls) p = match rowL w y (x + 1) ls p with Some b => Some b | None => only_at (x, y) a p end.
Proof.
  intros Hx. unfold rowL, only_at. destruct p as [px py]. unfold peqb. cbn [fst snd]. rewrite (andb_comm (px =? x)). destruct (Z.eqb_spec py y) as [->|Ny]; cbn [andb]; [|reflexivity].
  destruct (Z.eqb_spec px x) as [->|Nx].
  - replace (x <=? x) with true by (symmetry; apply Z.leb_le; lia). replace (x <? w) with true by (symmetry; apply Z.ltb_lt; lia). replace (x + 1 <=? x) with false by (symmetry; apply Z.leb_gt; lia).
    cbn [andb]. replace (Z.to_nat (x - x)) with 0%nat by lia. reflexivity.
  - destruct (Z.leb_spec (x + 1) px) as [L|L]; cbn [andb].
    + replace (x <=? px) with true by (symmetry; apply Z.leb_le; lia). cbn [andb]. destruct (px <? w); [|reflexivity]. replace (Z.to_nat (px - x)) with (S (Z.to_nat (px - (x + 1)))) by lia. cbn [nth_error].
      destruct (nth_error _ _); reflexivity.
    + replace (x <=? px) with false by (symmetry; apply Z.leb_gt; lia). reflexivity.
Qed.
Lemma rowL_right w y x ls p : rowL w y x ls p <> None -> snd p = y /\ x <= fst p < w.
Proof.
  unfold rowL. destruct (Z.eqb_spec (snd p) y), (Z.leb_spec x (fst p)), (Z.ltb_spec (fst p) w); cbn [andb]; try congruence. intros _. lia.
Qed.
Lemma setRow_gap line : forall g y x, setRow g y x line = setRow g y x (filter (fun c => negb (gap c)) line).
Proof.
  induction line as [|a line IH]; intros g y x; [reflexivity|]. cbn [filter]. destruct (gap a) eqn:Ga; cbn [negb].
  - cbn [setRow]. assert (Ha : a = 9 \/ a = 32). { unfold gap in Ga. cbn [existsb] in Ga. destruct (Z.eqb_spec a 9), (Z.eqb_spec a 32); auto; discriminate. }
    destruct (Z.leb_spec (dimX g) x) as [L|L]; [|destruct Ha as [-> | ->]; cbn -[setRow]; auto].
    destruct (filter _ line) eqn:F; cbn [setRow]; auto. now rewrite (proj2 (Z.leb_le _ _) L).
  - cbn [setRow]. destruct (dimX g <=? x); auto. destruct (a =? START); auto. destruct (a =? END); auto. destruct (_ || _); auto. destruct (a =? SKIP); auto. destruct (inside g (x, y)); auto.
Qed.
Lemma setRow_ok ls : forall g y x, (forall c, In c ls -> gap c = false /\ c <> 10) ->
  (forall p a, rowL (dimX g) y x ls p = Some a -> special a = false -> inside g p = true) ->
  exists g', setRow g y x ls = (g', true) /\ Eff (rowL (dimX g) y x ls) g g'.
Proof.
  induction ls as [|a ls IH]; intros g y x Hc Hi; cbn [setRow].
  - exists g. split; auto. apply eff_nil. intros p. unfold rowL. destruct (_ && _); auto. destruct (Z.to_nat _); reflexivity.
  - destruct (Z.leb_spec (dimX g) x) as [L|L].
    { exists g. split; auto. apply eff_nil. intros p. destruct (rowL _ _ _ _ p) eqn:E; auto. destruct (rowL_right (dimX g) y x (a :: ls) p); [congruence|lia]. }
    destruct (Hc a) as (Ga & Na); [now left|].
    assert (Step : forall g1, dimX g1 = dimX g -> dimY g1 = dimY g -> Eff (only_at (x, y) a) g g1 -> exists g', setRow g1 y (x + 1) ls = (g', true) /\ Eff (rowL (dimX g) y x (a :: ls)) g g').
    { intros g1 D1 D2 E1. destruct (IH g1 y (x + 1)) as (g' & E & Ef).
      - intros c H. apply Hc. now right.
      - intros p b Hp Hb. rewrite D1 in Hp. replace (inside g1 p) with (inside g p) by (unfold inside; now rewrite D1, D2). apply (Hi p b); auto. rewrite rowL_cons by auto. now rewrite Hp.
      - exists g'. split; auto. rewrite D1 in Ef. eapply eff_ext; [intros p; symmetry; apply rowL_cons; auto|]. eapply eff_seq; [|exact E1|exact Ef].
        intros p q Hp Hq. unfold only_at in Hp. destruct (peqb p (x, y)) eqn:Q; [|congruence]. apply peqb_eq in Q as ->. apply rowL_right in Hq as (Q1 & Q2). split; [right; cbn [fst snd]; lia|].
        intros <-. cbn [fst snd] in *. lia. }
    unfold START, END, SKIP, NL. destruct (Z.eqb_spec a 115) as [->|N1]; [apply Step; auto; apply eff_letter; auto; intros p; cbn [tiles with_target]; destruct (peqb p (x, y)); reflexivity|].
    destruct (Z.eqb_spec a 101) as [->|N2]; [apply Step; auto; apply eff_letter; auto; intros p; cbn [tiles with_target]; destruct (peqb p (x, y)); reflexivity|].
    replace ((a =? 9) || (a =? 32) || (a =? 10)) with false.
    2:{ symmetry. unfold gap in Ga. cbn [existsb] in Ga. rewrite orb_false_r in Ga. rewrite Ga. now apply Z.eqb_neq. }
    assert (N1' : (a =? 115) = false) by now apply Z.eqb_neq. assert (N2' : (a =? 101) = false) by now apply Z.eqb_neq.
    destruct (Z.eqb_spec a 42) as [->|N3]; [apply Step; auto; apply eff_letter; auto; intros p; destruct (peqb p (x, y)); reflexivity|].
    assert (Sp : special a = false). { unfold special. cbn [existsb]. apply Z.eqb_neq in N1, N2, N3. rewrite N1, N2, N3. reflexivity. }
    rewrite (Hi (x, y) a); auto.
    + apply Step; auto. apply eff_letter; auto; cbn [with_tiles tiles start finish]; rewrite ?N1', ?N2'; auto. intros p. rewrite Sp. unfold upd. destruct (peqb p (x, y)); reflexivity.
    + rewrite rowL_cons by auto. destruct (rowL (dimX g) y (x + 1) ls (x, y)) eqn:E; [destruct (rowL_right (dimX g) y (x + 1) ls (x, y)); [congruence|cbn [fst] in *; lia]|].
      unfold only_at. now rewrite peqb_refl.
Qed.
(** the rows [rs], from row [y] on *)
Definition rowsL (w y : Z) (rs : list (list Z)) (p : pos) : option Z :=
  if (0 <=? fst p) && (fst p <? w) && (y <=? snd p) then match nth_error rs (Z.to_nat (snd p - y)) with Some r => nth_error r (Z.to_nat (fst p)) | None => None end else None.
Lemma rowsL_cons w y r rs p : rowsL w y (r :: rs) p = match rowsL w (y + 1) rs p with Some b => Some b | None => rowL w y 0 r p end.
Proof.
  unfold rowsL, rowL. destruct p as [px py]. cbn [fst snd]. rewrite Z.sub_0_r. destruct (Z.eqb_spec py y) as [->|Ny].
  - replace (y <=? y) with true by (symmetry; apply Z.leb_le; lia). replace (y + 1 <=? y) with false by (symmetry; apply Z.leb_gt; lia). rewrite andb_false_r, andb_true_r. cbn [andb].
    replace (Z.to_nat (y - y)) with 0%nat by lia. cbn [nth_error]. destruct ((0 <=? px) && (px <? w)); reflexivity.
  - cbn [andb]. destruct (Z.leb_spec (y + 1) py) as [L|L].
    + replace (y <=? py) with true by (symmetry; apply Z.leb_le; lia). replace (Z.to_nat (py - y)) with (S (Z.to_nat (py - (y + 1)))) by lia. cbn [nth_error].
      match goal with |- ?a = _ => destruct a; reflexivity end.
    + replace (y <=? py) with false by (symmetry; apply Z.leb_gt; lia). rewrite andb_false_r. reflexivity.
Qed.
Lemma rowsL_below w y rs p : rowsL w y rs p <> None -> y <= snd p.
Proof. unfold rowsL. destruct (Z.leb_spec y (snd p)); [lia|]. rewrite andb_false_r. congruence. Qed.
Definition stripped (lines : list (list Z)) : list (list Z) := map (filter (fun c => negb (gap c))) (filter not_nil lines).
Lemma setRows_ok lines : forall g y, (forall l, In l lines -> no_nl l) ->
  (forall p a, rowsL (dimX g) y (stripped lines) p = Some a -> special a = false -> inside g p = true) ->
  exists g', setRows g y lines = (g', true) /\ Eff (rowsL (dimX g) y (stripped lines)) g g'.
Proof.
  induction lines as [|l lines IH]; intros g y Hn Hi; cbn [setRows].
  - exists g. split; auto. apply eff_nil. intros p. unfold rowsL, stripped. cbn. destruct (_ && _); auto. destruct (Z.to_nat _); reflexivity.
  - destruct l as [|c l]; [apply IH; [intros x Hx; apply Hn; now right|exact Hi]|]. set (l0 := c :: l) in *. change (stripped (l0 :: lines)) with (filter (fun c => negb (gap c)) l0 :: stripped lines) in *.
    rewrite setRow_gap. set (ls := filter (fun c => negb (gap c)) l0) in *. destruct (setRow_ok ls g y 0) as (g1 & E1 & Ef1).
    + intros x Hx. apply filter_In in Hx as (Hx & Hg). split; [now apply negb_true_iff|]. intros ->. apply (Hn l0); [now left|auto].
    + intros p a Hp Ha. apply (Hi p a); auto. rewrite rowsL_cons. destruct (rowsL (dimX g) (y + 1) (stripped lines) p) eqn:E; auto.
      exfalso. assert (rowL (dimX g) y 0 ls p <> None) by congruence. assert (rowsL (dimX g) (y + 1) (stripped lines) p <> None) by congruence. apply rowsL_below in H0. apply rowL_right in H. lia.
    + rewrite E1. destruct (IH g1 (y + 1)) as (g' & E & Ef).
      * intros x Hx. apply Hn. now right.
      * intros p a Hp Ha. pose proof (ef_x _ _ _ Ef1) as D1. pose proof (ef_y _ _ _ Ef1) as D2. rewrite D1 in Hp. replace (inside g1 p) with (inside g p) by (unfold inside; now rewrite D1, D2).
        apply (Hi p a); auto. rewrite rowsL_cons, Hp. reflexivity.
      * exists g'. split; auto. rewrite (ef_x _ _ _ Ef1) in Ef. eapply eff_ext; [intros p; symmetry; apply rowsL_cons|]. eapply eff_seq; [|exact Ef1|exact Ef].
        intros p q Hp Hq. apply rowL_right in Hp. apply rowsL_below in Hq. split; [left; lia|]. intros ->. lia.
Qed.
Lemma rowsL_letter w rs p : rowsL w 0 rs p = if fst p <? w then letter_at rs p else None.
Proof.
  unfold rowsL, letter_at. rewrite Z.sub_0_r. destruct (0 <=? fst p), (fst p <? w), (0 <=? snd p); cbn [andb]; reflexivity.
Qed.

(** ** printing *)
Definition matrix (w h : Z) (f : pos -> Z) : list (list Z) :=
  map (fun y => map (fun x => f (Z.of_nat x, Z.of_nat y)) (seq 0 (Z.to_nat w))) (seq 0 (Z.to_nat h)).
Lemma printed_matrix w h f : printed (matrix w h f) = picture w h f.
Proof. unfold printed, picture, matrix. f_equal. induction (seq 0 (Z.to_nat h)) as [|y l IH]; [reflexivity|]. cbn [map flat_map]. now rewrite IH. Qed.
Lemma dataOf_matrix g : dataOf g = matrix (dimX g) (dimY g) (fun p => attr (tiles g p)). Proof. reflexivity. Qed.
Lemma matrix_ext w h f f' : (forall p, within w h p -> f p = f' p) -> matrix w h f = matrix w h f'.
Proof.
  intros H. unfold matrix. apply map_ext_in. intros y Hy. apply map_ext_in. intros x Hx. apply in_seq in Hx, Hy. apply H. unfold within. cbn [fst snd]. lia.
Qed.
Lemma matrix_row w h f y : nth_error (matrix w h f) y = if (y <? Z.to_nat h)%nat then Some (map (fun x => f (Z.of_nat x, Z.of_nat y)) (seq 0 (Z.to_nat w))) else None.
Proof.
  unfold matrix. destruct (Nat.ltb_spec y (Z.to_nat h)) as [L|L].
  - rewrite nth_error_map. rewrite (nth_error_nth' _ 0%nat) by (rewrite seq_length; auto). rewrite seq_nth by auto. reflexivity.
  - apply nth_error_None. rewrite map_length, seq_length. auto.
Qed.
Lemma list_ext {T} (l l' : list T) : (forall i, nth_error l i = nth_error l' i) -> l = l'.
Proof.
  revert l'. induction l as [|x l IH]; intros [|y l'] H; auto; try (specialize (H 0%nat); discriminate). pose proof (H 0%nat) as H0. injection H0 as ->. f_equal. apply IH. intros i. apply (H (S i)).
Qed.
Lemma setData_matrix w h f p a : setData (matrix w h f) p a = if (0 <=? fst p) && (fst p <? w) && (0 <=? snd p) && (snd p <? h) then Some (matrix w h (fun q => if peqb q p then a else f q)) else None.
Proof.
  unfold setData. destruct p as [x y]. cbn [fst snd]. destruct (Z.ltb_spec x 0) as [X|X]; cbn [orb]; [replace (0 <=? x) with false by (symmetry; apply Z.leb_gt; lia); reflexivity|].
  destruct (Z.ltb_spec y 0) as [Y|Y]; [replace (0 <=? y) with false by (symmetry; apply Z.leb_gt; lia); rewrite andb_false_r; reflexivity|].
  replace (0 <=? x) with true by (symmetry; apply Z.leb_le; lia). replace (0 <=? y) with true by (symmetry; apply Z.leb_le; lia). rewrite andb_true_r. cbn [andb]. rewrite matrix_row.
  destruct (Z.ltb_spec y h) as [Yh|Yh].
  2:{ replace (Z.to_nat y <? Z.to_nat h)%nat with false by (symmetry; apply Nat.ltb_ge; lia). rewrite andb_false_r. reflexivity. }
  replace (Z.to_nat y <? Z.to_nat h)%nat with true by (symmetry; apply Nat.ltb_lt; lia). rewrite andb_true_r. rewrite map_length, seq_length.
  destruct (Z.ltb_spec x w) as [Xw|Xw]; [|replace (Z.to_nat x <? Z.to_nat w)%nat with false by (symmetry; apply Nat.ltb_ge; lia); reflexivity].
  replace (Z.to_nat x <? Z.to_nat w)%nat with true by (symmetry; apply Nat.ltb_lt; lia). f_equal. apply list_ext. intros j.
  destruct (Nat.eq_dec j (Z.to_nat y)) as [->|Nj].
  - rewrite nth_error_list_set_eq. 2:{ unfold matrix. rewrite map_length, seq_length. lia. }
    rewrite matrix_row. replace (Z.to_nat y <? Z.to_nat h)%nat with true by (symmetry; apply Nat.ltb_lt; lia). f_equal. apply list_ext. intros i.
    destruct (Nat.eq_dec i (Z.to_nat x)) as [->|Ni].
    + rewrite nth_error_list_set_eq by (rewrite map_length, seq_length; lia). rewrite nth_error_map. rewrite (nth_error_nth' _ 0%nat) by (rewrite seq_length; lia). rewrite seq_nth by lia.
      cbn [option_map plus]. rewrite !Z2Nat.id by lia. now rewrite peqb_refl.
    + rewrite nth_error_list_set_neq by auto. rewrite !nth_error_map. destruct (nth_error (seq 0 (Z.to_nat w)) i) as [i'|] eqn:Ei; [|reflexivity]. cbn [option_map].
      assert (i' = i). { assert (i < length (seq 0 (Z.to_nat w)))%nat by (apply nth_error_Some; congruence). rewrite seq_length in H. rewrite (nth_error_nth' _ 0%nat) in Ei by (rewrite seq_length; auto). rewrite seq_nth in Ei by auto. now injection Ei. }
      subst i'. unfold peqb. cbn [fst snd]. replace (Z.of_nat i =? x) with false by (symmetry; apply Z.eqb_neq; lia). reflexivity.
  - rewrite nth_error_list_set_neq by auto. rewrite !matrix_row. destruct (j <? Z.to_nat h)%nat; auto. f_equal. apply map_ext. intros i. unfold peqb. cbn [fst snd].
    replace (Z.of_nat j =? y) with false by (symmetry; apply Z.eqb_neq; lia). now rewrite andb_false_r.
Qed.
Lemma setData_within w h f p a : within w h p -> setData (matrix w h f) p a = Some (matrix w h (fun q => if peqb q p then a else f q)).
Proof.
  intros (H1 & H2). rewrite setData_matrix. replace (_ && _) with true; auto. symmetry. rewrite !andb_true_iff, !Z.leb_le, !Z.ltb_lt. lia.
Qed.
Lemma setPath_ok w h path : forall f, (forall p, In p path -> within w h p) -> setPath (matrix w h f) path = Some (matrix w h (fun q => if existsb (peqb q) path then PATH else f q)).
Proof.
  induction path as [|p path IH]; intros f H; cbn [setPath].
  - f_equal.
  - rewrite setData_within by (apply H; now left). rewrite IH by (intros; apply H; now right). f_equal. apply matrix_ext. intros q _. cbn [existsb]. destruct (peqb q p); cbn [orb]; auto. now destruct (existsb _ _).
Qed.

(** ** reading what was printed *)
Lemma pieces_rows rs : (forall r, In r rs -> no_nl r) -> pieces (flat_map (fun r => r ++ [10]) rs) = rs ++ [[]].
Proof.
  induction rs as [|r rs IH]; intros H; [reflexivity|]. cbn [flat_map]. rewrite <- app_assoc. cbn [app]. rewrite pieces_app by (apply H; now left). rewrite IH by (intros; apply H; now right). reflexivity.
Qed.
Lemma lines_rows rs : (forall r, In r rs -> ~ In 13 r) -> lines_of (rs ++ [[]]) = rs.
Proof.
  induction rs as [|r rs IH]; intros H; [reflexivity|]. cbn [app]. rewrite lines_of_cons by (destruct rs; discriminate). rewrite IH by (intros; apply H; now right). f_equal.
  unfold no_return. destruct (rev r) as [|c l] eqn:Er; auto. assert (c <> 13). { intros ->. apply (H r); [now left|]. rewrite in_rev, Er. now left. }
  destruct c as [|p|p]; auto. repeat (destruct p as [p|p|]; auto). congruence.
Qed.
Lemma rows_printed rs : (forall r c, In r rs -> In c r -> white c = false) -> (forall r, In r rs -> r <> []) -> rows (printed rs) = rs.
Proof.
  intros Hw Hne. unfold rows, text_lines, printed, NL. cbn [pieces]. rewrite Z.eqb_refl.
  assert (Hn : forall c, In c [10; 13] -> white c = true) by (intros c [<-|[<-|[]]]; reflexivity).
  rewrite pieces_rows. 2:{ intros r Hr X. specialize (Hw r 10 Hr X). rewrite Hn in Hw; [discriminate|cbn; auto]. }
  rewrite lines_of_cons by (destruct rs; discriminate). rewrite lines_rows. 2:{ intros r Hr X. specialize (Hw r 13 Hr X). rewrite Hn in Hw; [discriminate|cbn; auto]. }
  cbn [map filter no_return rev not_nil]. clear Hn. induction rs as [|r rs IH]; [reflexivity|]. cbn [map filter].
  replace (filter (fun c => negb (white c)) r) with r.
  2:{ assert (X : forall c, In c r -> white c = false) by (intros; eapply Hw; [now left|auto]). clear - X. induction r as [|c r IH]; [reflexivity|]. cbn [filter]. rewrite X by now left. cbn [negb]. f_equal. apply IH. intros. apply X. now right. }
  destruct r as [|c r]; [now destruct (Hne [] (or_introl eq_refl))|]. cbn [not_nil]. f_equal. apply IH; intros; [eapply Hw; [right; eauto|auto]|apply Hne; now right].
Qed.
Lemma short_printed rs : (forall r, In r rs -> no_nl r /\ Z.of_nat (length r) < 4096) -> short_lines (printed rs).
Proof.
  intros H l. unfold printed, NL. cbn [pieces]. rewrite Z.eqb_refl. rewrite pieces_rows by (intros; now apply H). intros [<-|Hl]; [cbn; lia|]. apply in_app_iff in Hl as [Hl|[<-|[]]]; [now apply H|cbn; lia].
Qed.
Lemma letter_matrix w h f p : letter_at (matrix w h f) p = if (0 <=? fst p) && (fst p <? w) && (0 <=? snd p) && (snd p <? h) then Some (f p) else None.
Proof.
  unfold letter_at. destruct p as [x y]. cbn [fst snd]. destruct (Z.leb_spec 0 x) as [X|X]; cbn [andb]; [|reflexivity]. destruct (Z.leb_spec 0 y) as [Y|Y]; cbn [andb]; [|now rewrite andb_false_r].
  rewrite andb_true_r. rewrite matrix_row. destruct (Z.ltb_spec y h) as [Yh|Yh].
  - replace (Z.to_nat y <? Z.to_nat h)%nat with true by (symmetry; apply Nat.ltb_lt; lia). rewrite andb_true_r. rewrite nth_error_map. destruct (Z.ltb_spec x w) as [Xw|Xw].
    + rewrite (nth_error_nth' _ 0%nat) by (rewrite seq_length; lia). rewrite seq_nth by lia. cbn [option_map plus]. rewrite !Z2Nat.id by lia. reflexivity.
    + rewrite (proj2 (nth_error_None _ _)); [reflexivity|]. rewrite seq_length. lia.
  - replace (Z.to_nat y <? Z.to_nat h)%nat with false by (symmetry; apply Nat.ltb_ge; lia). now rewrite andb_false_r.
Qed.
Lemma width_matrix w h f : 0 <= w -> 0 < h -> width (matrix w h f) = w.
Proof.
  intros Hw Hh. unfold matrix. destruct (Z.to_nat h) as [|n] eqn:En; [lia|]. clear En. generalize 0%nat at 2 as k. induction n as [|n IH]; intros k.
  - cbn [seq map width fold_right]. rewrite map_length, seq_length. lia.
  - specialize (IH (S k)). cbn [seq map] in *. unfold width in *. cbn [fold_right] in *. rewrite !map_length, !seq_length in *. lia.
Qed.
Lemma in_matrix w h f r : In r (matrix w h f) -> length r = Z.to_nat w /\ forall c, In c r -> exists p, within w h p /\ c = f p.
Proof.
  unfold matrix. intros H. apply in_map_iff in H as (y & <- & Hy). rewrite map_length, seq_length. split; auto. intros c Hc. apply in_map_iff in Hc as (x & <- & Hx). apply in_seq in Hx, Hy.
  eexists. split; [|reflexivity]. unfold within. cbn [fst snd]. lia.
Qed.
(** reading the picture of a grid *)
Lemma reread w h f : 0 < w < 4096 -> 0 < h -> (forall p, within w h p -> white (f p) = false) ->
  short_lines (picture w h f) /\ rows (picture w h f) = matrix w h f /\ width (matrix w h f) = w /\ Z.of_nat (length (matrix w h f)) = h.
Proof.
  intros Hw Hh Hf. rewrite <- printed_matrix. split; [|split; [|split]].
  - apply short_printed. intros r Hr. apply in_matrix in Hr as (H1 & H2). split; [|lia]. intros X. apply H2 in X as (p & Hp & E). specialize (Hf p Hp). rewrite <- E in Hf. discriminate.
  - apply rows_printed.
    + intros r c Hr Hc. apply in_matrix in Hr as (_ & H2). apply H2 in Hc as (p & Hp & ->). auto.
    + intros r Hr ->. apply in_matrix in Hr as (H1 & _). cbn in H1. lia.
  - apply width_matrix; lia.
  - unfold matrix. rewrite map_length, seq_length. lia.
Qed.
