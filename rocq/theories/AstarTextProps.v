(** graph/astar: grids read from text (C58) and printed (C59). *)
From Verif Require Import Base Bind Machine AstarSpec AstarModel AstarProofs AstarMore AstarProps AstarTextProofs.
Local Open Scope Z_scope.

(** the last of the positions [P], or else what there was *)
Definition last_or (P : pos -> Prop) (old new : option pos) : Prop :=
  exists o, is_last P o /\ new = match o with Some p => Some p | None => old end.

Lemma setData_off w h f p a : ~ within w h p -> setData (matrix w h f) p a = None.
Proof.
  intros H. rewrite setData_matrix. destruct (_ && _) eqn:E; auto. destruct H. rewrite !andb_true_iff, !Z.leb_le, !Z.ltb_lt in E. unfold within. lia.
Qed.
Lemma within_dec w h p : within w h p \/ ~ within w h p. Proof. unfold within. lia. Qed.

Section Props.
  Context (Cost Weight : graph -> pos -> pos -> Z) (sortPaths : list (list pos) -> list (list pos)).
  Notation step := (as_step Cost Weight sortPaths).
  Notation shows g p := (seen_attr Cost Weight sortPaths g p).
  (** what GetDimension and GetTarget answer *)
  Definition has_size (g : graph) (w h : Z) : Prop := step g AGetDimension = Some (g, ATarget (Some (w, h)) None).
  Definition has_target (g : graph) (s e : option pos) : Prop := step g AGetTarget = Some (g, ATarget s e).
  Lemma size_ok g w h : has_size g w h <-> dimX g = w /\ dimY g = h.
  Proof. unfold has_size. cbn [as_step]. split; [intros H; injection H as <- <-; auto|intros (<- & <-); auto]. Qed.
  Lemma target_ok g s e : has_target g s e <-> option_map at_ (start g) = s /\ option_map at_ (finish g) = e.
  Proof. unfold has_target. cbn [as_step]. split; [intros H; injection H as <- <-; auto|intros (<- & <-); auto]. Qed.

  (** NewWithTiles: as many columns as the longest row, as many rows as there are; every tile has the attribute of its
      letter, plain if there is none or it has a meaning of its own; start and end are where the last 's' and 'e' are. *)
  Theorem C58_new_with_tiles text : short_lines text -> let g := NewWithTiles text in let rs := rows text in
    has_size g (width rs) (Z.of_nat (length rs)) /\
    (forall p, within (width rs) (Z.of_nat (length rs)) p ->
       (forall a, letter_at rs p = Some a -> special a = false -> shows g p = Some (ANum a)) /\
       ((forall a, letter_at rs p = Some a -> special a = true) -> shows g p = Some (ANum 46))) /\
    exists s e, has_target g s e /\ is_last (fun p => letter_at rs p = Some 115) s /\ is_last (fun p => letter_at rs p = Some 101) e.
  Proof.
    intros H g rs. destruct (NewWithTiles_ok text H) as (D1 & D2 & A & T1 & T2). fold g rs in D1, D2, A, T1, T2. split; [now apply size_ok|]. split.
    - intros p Hp. rewrite shows_attr by (rewrite D1, D2; auto). rewrite A by (unfold within in Hp; lia). split.
      + intros a -> ->. reflexivity.
      + intros X. destruct (letter_at rs p) as [a|]; [|reflexivity]. rewrite (X a eq_refl). reflexivity.
    - do 2 eexists. split; [now apply target_ok|]. auto.
  Qed.

  (** SetStringTiles, if no letter for a tile is below the grid: it gives every tile the attribute of its letter and leaves
      the tiles without a letter, or with a letter with a meaning of its own, as they are; letters right of the grid are
      ignored; start and end are where the last 's' and 'e' are, also below the grid. *)
  Theorem C58_set_string_tiles g w h s0 e0 text : has_size g w h -> has_target g s0 e0 -> short_lines text -> let rs := loose_rows text in
    (forall p a, fst p < w -> letter_at rs p = Some a -> special a = false -> snd p < h) ->
    exists g', step g (ASetStringTiles text) = Some (g', AUnit) /\ has_size g' w h /\
      (forall p, within w h p ->
         (forall a, letter_at rs p = Some a -> special a = false -> shows g' p = Some (ANum a)) /\
         ((forall a, letter_at rs p = Some a -> special a = true) -> shows g' p = shows g p)) /\
      exists s e, has_target g' s e /\ last_or (fun p => fst p < w /\ letter_at rs p = Some 115) s0 s /\ last_or (fun p => fst p < w /\ letter_at rs p = Some 101) e0 e.
  Proof.
    intros HS HT Hsh rs Hlow. apply size_ok in HS as (D1 & D2). apply target_ok in HT as (T1 & T2). cbn [as_step]. rewrite readLines_ok by auto.
    destruct (setRows_ok (text_lines text) g 0) as (g' & E & [E1 E2 E3 (o & O1 & O2) (o' & O3 & O4)]).
    - intros l. apply lines_nl.
    - intros p a Hp Ha. change (stripped (text_lines text)) with rs in Hp. rewrite rowsL_letter, D1 in Hp. destruct (Z.ltb_spec (fst p) w) as [L|L]; [|discriminate].
      apply inside_within. specialize (Hlow p a L Hp Ha). unfold within. rewrite D1, D2. revert Hp. unfold letter_at. destruct (Z.leb_spec 0 (fst p)), (Z.leb_spec 0 (snd p)); cbn [andb]; try discriminate. lia.
    - change (stripped (text_lines text)) with rs in *. rewrite E. exists g'. split; auto. rewrite D1 in *.
      assert (EQ : forall c p, rowsL w 0 rs p = Some c <-> fst p < w /\ letter_at rs p = Some c).
      { intros c p. rewrite rowsL_letter. destruct (Z.ltb_spec (fst p) w); split; try tauto; [discriminate|]. intros (X & _). lia. }
      split; [apply size_ok; auto; rewrite E1, E2; auto|]. split.
      + intros p Hp. rewrite !shows_attr; [|rewrite D1, D2; auto|rewrite E1, E2, D2; auto]. rewrite E3, rowsL_letter. replace (fst p <? w) with true by (symmetry; apply Z.ltb_lt; unfold within in Hp; lia). split.
        * intros a -> Ha. cbn [overlay]. now rewrite Ha.
        * intros X. destruct (letter_at rs p) as [a|]; [|reflexivity]. cbn [overlay]. rewrite (X a eq_refl). reflexivity.
      + do 2 eexists. split; [apply target_ok; split; reflexivity|]. split.
        * exists o. split; [eapply is_last_ext; [|exact O1]; apply EQ|]. rewrite O2, T1. destruct o; reflexivity.
        * exists o'. split; [eapply is_last_ext; [|exact O3]; apply EQ|]. rewrite O4, T2. destruct o'; reflexivity.
  Qed.

  Lemma is_last_unique P a b : is_last P a -> is_last P b -> a = b.
  Proof.
    destruct a as [p|], b as [q|]; cbn; auto.
    - intros (A1 & A2) (B1 & B2). apply A2 in B1. apply B2 in A1. f_equal. destruct p, q. unfold not_after in *. cbn [fst snd] in *. f_equal; lia.
    - intros (A1 & _) B. now apply B in A1.
    - intros A (B1 & _). now apply A in B1.
  Qed.
  Lemma rows_loose text : (forall c, In c text -> c <> 12 /\ c <> 13) -> (forall l, In l (pieces text) -> l = [] \/ exists c, In c l /\ white c = false) -> loose_rows text = rows text.
  Proof.
    intros Hc Hl.
    assert (Hp : forall l, In l (pieces text) -> forall c, In c l -> c <> 10 /\ c <> 12 /\ c <> 13).
    { intros l H c Hin. split; [intros ->; now apply (pieces_nl text l H)|]. apply Hc. clear Hc Hl. revert l H Hin. induction text as [|x text IH]; intros l; cbn [pieces].
      - intros [<-|[]] [].
      - destruct (Z.eqb_spec x 10) as [->|N]; [intros [<-|H] Hin; [destruct Hin|right; eauto]|]. destruct (pieces text) as [|a ps] eqn:E; [now apply pieces_ne in E|].
        intros [<-|H] Hin; [destruct Hin as [->|Hin]; [now left|right; apply (IH a); [now left|auto]]|right; apply (IH l); [now right|auto]]. }
    assert (Hlines : forall l, In l (text_lines text) -> In l (pieces text)).
    { assert (K : forall ps, (forall l, In l ps -> ~ In 13 l) -> forall l, In l (lines_of ps) -> In l ps).
      { induction ps as [|a ps IH]; intros H l; [intros []|]. destruct ps as [|b ps].
        - destruct a; cbn; [intros []|auto].
        - rewrite lines_of_cons by discriminate. intros [<-|X]; [left|right; apply IH; auto; intros; apply H; now right].
          unfold no_return. destruct (rev a) as [|c r] eqn:Er; auto. assert (c <> 13). { intros ->. apply (H a); [now left|]. rewrite in_rev, Er. now left. }
          destruct c as [|p|p]; auto. repeat (destruct p as [p|p|]; auto). congruence. }
      apply K. intros l H X. apply (Hp l H) in X. tauto. }
    unfold loose_rows, rows. revert Hlines. generalize (text_lines text) as ls. induction ls as [|l ls IH]; intros H; [reflexivity|]. cbn [filter map].
    assert (In l (pieces text)) as Hin by (apply H; now left). specialize (IH (fun x Hx => H x (or_intror Hx))).
    replace (filter (fun c => negb (white c)) l) with (filter (fun c => negb (gap c)) l).
    2:{ apply filter_ext_in. intros c Hcl. destruct (Hp l Hin c Hcl) as (X1 & X2 & X3). f_equal. unfold gap, white. cbn [existsb]. apply Z.eqb_neq in X1, X2, X3. rewrite X1, X2, X3. reflexivity. }
    destruct (Hl l Hin) as [->|(c & Hc1 & Hc2)]; [cbn; exact IH|].
    assert (Hg : gap c = false). { unfold white in Hc2. unfold gap. cbn [existsb] in *. destruct (Z.eqb_spec c 9), (Z.eqb_spec c 32); auto; subst; discriminate. }
    assert (In c (filter (fun c => negb (gap c)) l)) as X by (apply filter_In; rewrite Hg; auto).
    destruct l as [|c0 l]; [destruct Hc1|]. cbn [not_nil map]. destruct (filter (fun c1 => negb (gap c1)) (c0 :: l)) as [|y ys]; [destruct X|]. cbn [not_nil]. f_equal. exact IH.
  Qed.
  (** A new grid of the right size filled by SetStringTiles is the same as what NewWithTiles gives.  Missing: texts with form
      feeds or returns, or with lines of nothing but blanks (see C58_blank_line_refuted). *)
  Theorem C58_both_ways_partial text : short_lines text -> (forall c, In c text -> c <> 12 /\ c <> 13) ->
    (forall l, In l (pieces text) -> l = [] \/ exists c, In c l /\ white c = false) ->
    let g := NewWithTiles text in exists w h g0 g1, has_size g w h /\ New w h = Some g0 /\ step g0 (ASetStringTiles text) = Some (g1, AUnit) /\ has_size g1 w h /\
      (forall p, within w h p -> shows g1 p = shows g p) /\ exists s e, has_target g1 s e /\ has_target g s e.
  Proof.
    intros Hsh Hc Hl g. destruct (C58_new_with_tiles text Hsh) as (S & A & s & e & T & Ls & Le). fold g in S, A, T. set (rs := rows text) in *. set (w := width rs) in *. set (h := Z.of_nat (length rs)) in *.
    assert (Hw : 0 <= w). { unfold w, width. clear. induction rs; cbn [fold_right]; lia. }
    assert (E0 : exists g0, New w h = Some g0). { unfold New. replace (h <? 0) with false by (symmetry; apply Z.ltb_ge; lia). replace (w <? 0) with false by (symmetry; apply Z.ltb_ge; lia). eexists. reflexivity. }
    destruct E0 as (g0 & E0).
    assert (F0 : has_size g0 w h /\ has_target g0 None None /\ forall p, within w h p -> shows g0 p = Some (ANum 46)).
    { revert E0. unfold New. destruct (_ || _); [discriminate|]. intros E0. injection E0 as <-. repeat split; auto. intros p Hp. now rewrite shows_attr. }
    destruct F0 as (S0 & T0 & A0). destruct (C58_set_string_tiles g0 w h None None text S0 T0 Hsh) as (g1 & E1 & S1 & A1 & s1 & e1 & T1 & (o & O1 & O2) & (o' & O3 & O4)).
    - rewrite rows_loose by auto. fold rs. intros p a _ Hp _. apply letter_within in Hp. unfold within in Hp. unfold h. lia.
    - rewrite rows_loose in * by auto. fold rs in A1, O1, O3. exists w, h, g0, g1. split; auto. split; auto. split; auto. split; auto. split.
      + intros p Hp. destruct (A p Hp) as (X1 & X2). destruct (A1 p Hp) as (Y1 & Y2). destruct (letter_at rs p) as [a|] eqn:El.
        * destruct (special a) eqn:Sa; [|rewrite (X1 a), (Y1 a); auto]. rewrite X2, Y2; [auto| |]; intros a' Ha'; injection Ha' as <-; auto.
        * rewrite X2, Y2; [auto| |]; intros a' Ha'; discriminate.
      + exists s, e. split; [|auto]. assert (s1 = s) as <-; [|assert (e1 = e) as <-; [|exact T1]].
        * apply is_last_unique with (P := fun p => letter_at rs p = Some 115); [|exact Ls]. assert (s1 = o) as -> by (rewrite O2; now destruct o). eapply is_last_ext; [|exact O1]. intros p. cbn beta. split; [tauto|].
          intros X. split; auto. apply letter_within in X. unfold within in X. unfold w. lia.
        * apply is_last_unique with (P := fun p => letter_at rs p = Some 101); [|exact Le]. assert (e1 = o') as -> by (rewrite O4; now destruct o'). eapply is_last_ext; [|exact O3]. intros p. cbn beta. split; [tauto|].
          intros X. split; auto. apply letter_within in X. unfold within in X. unfold w. lia.
  Qed.

  (** ** C59.  What the answers show *)
  Definition on (q : option pos) (p : pos) : Prop := q = Some p.
  Definition off_grid (w h : Z) (q : option pos) : Prop := exists p, q = Some p /\ ~ within w h p.
  Theorem C59_tiles g w h : has_size g w h ->
    exists f, step g AGetTiles = Some (g, AText (picture w h f)) /\ forall p, within w h p -> shows g p = Some (ANum (f p)).
  Proof.
    intros HS. apply size_ok in HS as (<- & <-). exists (fun p => attr (tiles g p)). cbn [as_step]. unfold GetTiles. rewrite dataOf_matrix, printed_matrix. split; auto. intros p Hp. now apply shows_attr.
  Qed.
  (** GetTilesWithTarget: the same with 's' and 'e' on start and end, if there are any; it panics if they are off the grid *)
  Theorem C59_tiles_with_target g w h s e : has_size g w h -> has_target g s e ->
    (off_grid w h s \/ off_grid w h e -> step g AGetTilesWithTarget = Some (g, APanic)) /\
    (~ off_grid w h s -> ~ off_grid w h e -> exists f, step g AGetTilesWithTarget = Some (g, AText (picture w h f)) /\
       forall p, within w h p -> (on e p -> f p = 101) /\ (~ on e p -> on s p -> f p = 115) /\ (~ on e p -> ~ on s p -> shows g p = Some (ANum (f p)))).
  Proof.
    intros HS HT. apply size_ok in HS as (<- & <-). apply target_ok in HT as (<- & <-). set (w := dimX g). set (h := dimY g). cbn [as_step]. unfold GetTilesWithTarget. rewrite dataOf_matrix. fold w h.
    set (f0 := fun p => attr (tiles g p)).
    set (f1 := fun q => match start g with Some s => if peqb q (at_ s) then 115 else f0 q | None => f0 q end).
    assert (E1 : ~ off_grid w h (option_map at_ (start g)) -> match start g with Some s => setData (matrix w h f0) (at_ s) START | None => Some (matrix w h f0) end = Some (matrix w h f1)).
    { unfold off_grid, f1. destruct (start g) as [s|]; cbn [option_map]; auto. intros H. apply setData_within. destruct (within_dec w h (at_ s)); auto. destruct H. eauto. }
    assert (E1' : off_grid w h (option_map at_ (start g)) \/ ~ off_grid w h (option_map at_ (start g))).
    { unfold off_grid. destruct (start g) as [s|]; cbn [option_map]; [|right; intros (p & X & _); discriminate]. destruct (within_dec w h (at_ s)); [right|left; eauto]. intros (p & X & Y). injection X as <-. auto. }
    split.
    - intros H. destruct E1' as [Hs|Hs].
      + destruct Hs as (p & X & Y). destruct (start g) as [s|]; [|discriminate]. injection X as <-. rewrite setData_off; auto.
      + rewrite E1 by auto. destruct H as [H|(p & X & Y)]; [now destruct Hs|]. destruct (finish g) as [e|]; [|discriminate]. injection X as <-. rewrite setData_off; auto.
    - intros Hs He. rewrite E1 by auto. clear E1 E1'.
      exists (fun q => match finish g with Some e => if peqb q (at_ e) then 101 else f1 q | None => f1 q end). split.
      + destruct (finish g) as [e|]; [|now rewrite printed_matrix]. rewrite setData_within; [now rewrite printed_matrix|]. destruct (within_dec w h (at_ e)); auto. destruct He. exists (at_ e). auto.
      + intros p Hp. unfold on, f1. rewrite shows_attr by auto. fold (f0 p). destruct (finish g) as [e|], (start g) as [s|]; cbn [option_map];
          repeat match goal with |- context [peqb ?a ?b] => destruct (peqb a b) eqn:?P; [apply peqb_eq in P; subst|assert (a <> b) by (intros X; apply peqb_eq in X; congruence); clear P] end;
          repeat split; intros; try discriminate; try reflexivity; congruence.
  Qed.
  (** GetPathTiles: 'o' on the path, then 's' and 'e' on start and end; panics if one of them is off the grid or missing *)
  Theorem C59_path_tiles g w h s e path : has_size g w h -> has_target g s e ->
    ((exists p, In p path /\ ~ within w h p) \/ off_grid w h s \/ off_grid w h e \/ s = None \/ e = None -> step g (AGetPathTiles path) = Some (g, APanic)) /\
    ((forall p, In p path -> within w h p) -> ~ off_grid w h s -> ~ off_grid w h e -> s <> None -> e <> None ->
       exists f, step g (AGetPathTiles path) = Some (g, AText (picture w h f)) /\
       forall p, within w h p -> (on e p -> f p = 101) /\ (~ on e p -> on s p -> f p = 115) /\ (~ on e p -> ~ on s p -> In p path -> f p = 111) /\
         (~ on e p -> ~ on s p -> ~ In p path -> shows g p = Some (ANum (f p)))).
  Proof.
    intros HS HT. apply size_ok in HS as (<- & <-). apply target_ok in HT as (<- & <-). set (w := dimX g). set (h := dimY g). cbn [as_step]. unfold GetPathTiles. rewrite dataOf_matrix. fold w h.
    set (f0 := fun p => attr (tiles g p)).
    assert (Hpath : (exists p, In p path /\ ~ within w h p) \/ forall p, In p path -> within w h p).
    { induction path as [|p l [(q & H1 & H2)|IH]]; [right; intros p []|left; exists q; split; [now right|auto]|]. destruct (within_dec w h p); [right|left; exists p; split; [now left|auto]]. intros q [<-|Hq]; auto. }
    assert (Hbad : forall l f, (exists p, In p l /\ ~ within w h p) -> setPath (matrix w h f) l = None).
    { clear. induction l as [|p l IH]; intros f (q & Hq & Hn); [destruct Hq|]. cbn [setPath]. destruct (within_dec w h p) as [Hp|Hp]; [|now rewrite setData_off].
      rewrite setData_within by auto. apply IH. destruct Hq as [->|Hq]; [now destruct Hn|eauto]. }
    split.
    - intros H. destruct Hpath as [Hp|Hp]; [now rewrite Hbad|]. rewrite setPath_ok by auto. destruct H as [(p & H1 & H2)|H]; [apply Hp in H1; now destruct H2|].
      destruct (start g) as [s|]; [|reflexivity]. destruct (within_dec w h (at_ s)) as [Ws|Ws]; [|now rewrite setData_off]. rewrite setData_within by auto.
      destruct (finish g) as [e|]; [|reflexivity]. destruct (within_dec w h (at_ e)) as [We|We]; [|now rewrite setData_off]. exfalso.
      destruct H as [(p & X & Y)|[(p & X & Y)|[X|X]]]; try discriminate; injection X as <-; auto.
    - intros Hp' Hs He Ns Ne. rewrite setPath_ok by auto. destruct (start g) as [s|]; [|now destruct Ns]. destruct (finish g) as [e|]; [|now destruct Ne]. cbn [option_map] in *.
      assert (Ws : within w h (at_ s)). { destruct (within_dec w h (at_ s)); auto. destruct Hs. exists (at_ s). auto. }
      assert (We : within w h (at_ e)). { destruct (within_dec w h (at_ e)); auto. destruct He. exists (at_ e). auto. }
      rewrite setData_within by auto. rewrite setData_within by auto. rewrite printed_matrix. eexists. split; [reflexivity|]. intros p Wp. cbv beta. unfold on. rewrite shows_attr by auto. fold (f0 p).
      assert (X : existsb (peqb p) path = true <-> In p path).
      { rewrite existsb_exists. split; [intros (x & H1 & H2); apply peqb_eq in H2 as ->; auto|intros H; exists p; split; auto; apply peqb_refl]. }
      unfold START, END, PATH. destruct (peqb p (at_ e)) eqn:P1; [apply peqb_eq in P1 as ->; repeat split; intros; congruence|].
      assert (p <> at_ e) by (intros Y; apply peqb_eq in Y; congruence). destruct (peqb p (at_ s)) eqn:P2; [apply peqb_eq in P2 as ->; repeat split; intros; congruence|].
      assert (p <> at_ s) by (intros Y; apply peqb_eq in Y; congruence). repeat split; try (intros; congruence).
      + intros _ _ Hi. apply X in Hi. now rewrite Hi.
      + intros _ _ Hi. destruct (existsb (peqb p) path); [destruct Hi; now apply X|reflexivity].
  Qed.
  (** GetSinglePathTiles shows the path GetPath gives, and panics if there is none *)
  Theorem C59_single_path_tiles g :
    (step g AGetPath = Some (g, APanic) -> step g AGetSinglePathTiles = Some (g, APanic)) /\
    (forall p, step g AGetPath = Some (g, APath p) -> step g AGetSinglePathTiles = step g (AGetPathTiles p)).
  Proof.
    cbn [as_step]. destruct (pathlist g) as [|p ps]; split; auto; [discriminate|discriminate|]. intros q E. injection E as <-. reflexivity.
  Qed.
  (** GetSinglePathTiles after a successful search shows the path found *)
  Theorem C59_found_path legal w h b g s e g' : grows Cost legal -> ground Cost Weight sortPaths legal w h g s e -> ready Cost Weight sortPaths w h b g -> fair b -> has_target g (Some s) (Some e) -> within w h s -> within w h e ->
    step g ASearch = Some (g', ABool true) ->
    exists p f, step g' AGetPath = Some (g', APath p) /\ route b (free Cost Weight sortPaths w h g s e) e p s /\ step g' AGetSinglePathTiles = Some (g', AText (picture w h f)) /\
      forall q, within w h q -> (q = e -> f q = 101) /\ (q <> e -> q = s -> f q = 115) /\ (q <> e -> q <> s -> In q p -> f q = 111) /\ (~ In q p -> shows g q = Some (ANum (f q))).
  Proof.
    intros Gr Hg Hr Hf Ht Ws We E. destruct (C46_search_decides Cost Weight sortPaths legal w h b g s e Gr Hg Hr Hf Ht Ws We) as (g1 & r & E1 & _ & R). rewrite E in E1. injection E1 as <- <-.
    destruct (R eq_refl) as (p & P1 & P2 & P3 & _). clear R. destruct (ready_ok _ _ _ _ _ _ _ Hr) as (RI0 & _). pose proof RI0 as (D1 & D2 & D3 & D4).
    apply target_ok in Ht as (Hs & He). destruct (start g) as [sp|] eqn:Es; [|discriminate]. destruct (finish g) as [ep|] eqn:Ee; [|discriminate]. injection Hs as <-. injection He as <-. subst w h.
    assert (E' : search Cost Weight sortPaths false g = Some (g', ABool true)) by exact E. destruct (search_unfold Cost Weight sortPaths false g sp ep Es Ee D4 Ws We) as (h1 & _ & _ & X). rewrite X in E'. clear X.
    destruct (loop _ _ _ _ _ _ _ _) as [[g2 b']|] eqn:E2; [|discriminate]. injection E' as E' _. apply loop_frame in E2 as (Fr & _). destruct Fr as [F1 F2 F3 F4 F5 F6 _]. cbn [dimX dimY start finish neighbor tiles] in *.
    assert (HS' : has_size g' (dimX g) (dimY g)) by (apply size_ok; subst g'; auto).
    assert (HT' : has_target g' (Some (at_ sp)) (Some (at_ ep))) by (apply target_ok; subst g'; cbn [with_heap start finish]; rewrite F3, F4; auto).
    assert (Rin : forall f x l y, route b f x l y -> In x l /\ In y l /\ forall q, In q l -> f q).
    { clear. intros f x l y. induction 1 as [x Hx|x c y l Hx Ha H (IH1 & IH2 & IH3)].
      - split; [now left|]. split; [now left|]. intros q [<-|[]]; auto.
      - split; [now left|]. split; [now right|]. intros q [<-|Hq]; auto. }
    destruct (Rin _ _ _ _ P2) as (I1 & I2 & I3).
    destruct (C59_path_tiles g' (dimX g) (dimY g) (Some (at_ sp)) (Some (at_ ep)) p HS' HT') as (_ & K). destruct K as (f & K1 & K2).
    - intros q Hq. apply I3 in Hq. apply Hq.
    - intros (q & Q1 & Q2). injection Q1 as <-. auto.
    - intros (q & Q1 & Q2). injection Q1 as <-. auto.
    - discriminate.
    - discriminate.
    - exists p, f. split; auto. split; auto. split.
      + cbn [as_step] in P1, K1 |- *. destruct (pathlist g'); [discriminate|]. injection P1 as ->. exact K1.
      + intros q Hq. destruct (K2 q Hq) as (K3 & K4 & K5 & K6). unfold on in *. split; [intros ->; auto|]. split; [intros N ->; apply K4; auto; congruence|]. split; [intros; apply K5; auto; congruence|].
        intros N. assert (q <> at_ ep) by (intros ->; auto). assert (q <> at_ sp) by (intros ->; auto). rewrite <- K6 by (auto; congruence). rewrite !shows_attr; auto.
        2:{ subst g'. cbn [with_heap dimX dimY]. rewrite F1, F2. auto. }
        subst g'. cbn [with_heap tiles]. rewrite F6. unfold marked, upd. rewrite !peqb_neq by auto. reflexivity.
  Qed.

  (** What was printed can be read again: visible letters without a meaning of their own, at most 4095 columns.  Missing:
      wider grids (see C59_wide_refuted). *)
  Theorem C59_read_again_partial g w h : has_size g w h -> 0 < w < 4096 -> 0 < h ->
    (forall p a, within w h p -> shows g p = Some (ANum a) -> white a = false /\ special a = false) ->
    exists t, step g AGetTiles = Some (g, AText t) /\ let g2 := NewWithTiles t in
      has_size g2 w h /\ has_target g2 None None /\ forall p, within w h p -> shows g2 p = shows g p.
  Proof.
    intros HS Hw Hh Hv. destruct (C59_tiles g w h HS) as (f & E & F). exists (picture w h f). split; auto. intros g2.
    destruct (reread w h f Hw Hh) as (R1 & R2 & R3 & R4). { intros p Hp. destruct (Hv p (f p) Hp); auto. }
    destruct (C58_new_with_tiles _ R1) as (S & A & s & e & T & T1 & T2). fold g2 in S, A, T. rewrite R2 in *. rewrite R3, R4 in *. split; auto.
    assert (L : forall p, letter_at (matrix w h f) p = if (0 <=? fst p) && (fst p <? w) && (0 <=? snd p) && (snd p <? h) then Some (f p) else None) by (apply letter_matrix).
    assert (No : forall o c, is_last (fun p => letter_at (matrix w h f) p = Some c) o -> special c = true -> o = None).
    { intros [p|] c; auto. intros (H1 & _) Hc. rewrite L in H1. destruct (_ && _) eqn:Ew; [|discriminate]. injection H1 as <-.
      rewrite !andb_true_iff, !Z.leb_le, !Z.ltb_lt in Ew. assert (Wp : within w h p) by (unfold within; lia). destruct (Hv p (f p) Wp); auto. congruence. }
    split; [rewrite (No _ _ T1 eq_refl), (No _ _ T2 eq_refl) in T; exact T|]. intros p Hp. rewrite F by auto. destruct (A p Hp) as (A1 & _). apply A1; [|now destruct (Hv p (f p) Hp); auto].
    rewrite L. replace (_ && _) with true; auto. symmetry. unfold within in Hp. rewrite !andb_true_iff, !Z.leb_le, !Z.ltb_lt. lia.
  Qed.
  Theorem C59_read_target_again_partial g w h s e : has_size g w h -> has_target g (Some s) (Some e) -> within w h s -> within w h e -> s <> e -> 0 < w < 4096 ->
    (forall p a, within w h p -> p <> s -> p <> e -> shows g p = Some (ANum a) -> white a = false /\ special a = false) ->
    exists t, step g AGetTilesWithTarget = Some (g, AText t) /\ let g2 := NewWithTiles t in
      has_size g2 w h /\ has_target g2 (Some s) (Some e) /\ forall p, within w h p -> p <> s -> p <> e -> shows g2 p = shows g p.
  Proof.
    intros HS HT Ws We Hse Hw Hv. destruct (C59_tiles_with_target g w h _ _ HS HT) as (_ & K). destruct K as (f & E & F).
    - intros (q & Q1 & Q2). injection Q1 as <-. auto.
    - intros (q & Q1 & Q2). injection Q1 as <-. auto.
    - exists (picture w h f). split; auto. intros g2. unfold on in F.
      assert (Hh : 0 < h) by (unfold within in Ws; lia).
      assert (Fe : f e = 101) by (apply F; auto). assert (Fs : f s = 115) by (apply F; auto; congruence).
      assert (Fo : forall p, within w h p -> p <> s -> p <> e -> shows g p = Some (ANum (f p))) by (intros; apply F; auto; congruence).
      destruct (reread w h f Hw Hh) as (R1 & R2 & R3 & R4).
      { intros p Hp. destruct (pos_dec p e) as [->|N1]; [now rewrite Fe|]. destruct (pos_dec p s) as [->|N2]; [now rewrite Fs|]. destruct (Hv p (f p) Hp); auto. }
      destruct (C58_new_with_tiles _ R1) as (S & A & s' & e' & T & T1 & T2). fold g2 in S, A, T. rewrite R2 in *. rewrite R3, R4 in *. split; auto.
      assert (L : forall p, letter_at (matrix w h f) p = if (0 <=? fst p) && (fst p <? w) && (0 <=? snd p) && (snd p <? h) then Some (f p) else None) by (apply letter_matrix).
      assert (L1 : forall p, within w h p -> letter_at (matrix w h f) p = Some (f p)).
      { intros p Hp. rewrite L. replace (_ && _) with true; auto. symmetry. unfold within in Hp. rewrite !andb_true_iff, !Z.leb_le, !Z.ltb_lt. lia. }
      assert (L2 : forall p c, letter_at (matrix w h f) p = Some c -> within w h p /\ f p = c).
      { intros p c. rewrite L. destruct (_ && _) eqn:Ew; [|discriminate]. intros X. injection X as <-. rewrite !andb_true_iff, !Z.leb_le, !Z.ltb_lt in Ew. unfold within. lia. }
      assert (U : forall q c o, within w h q -> f q = c -> (forall p, within w h p -> f p = c -> p = q) -> is_last (fun p => letter_at (matrix w h f) p = Some c) o -> o = Some q).
      { intros q c o Wq Fq Uq H. eapply is_last_unique; [exact H|]. split; [rewrite L1 by auto; congruence|]. intros p Hp. apply L2 in Hp as (Wp & Fp). rewrite (Uq p Wp Fp). right. lia. }
      assert (Hn : forall p c, within w h p -> special c = true -> f p = c -> p = s \/ p = e).
      { intros p c Hp Hc Fp. destruct (pos_dec p e) as [->|N1]; auto. destruct (pos_dec p s) as [->|N2]; auto. destruct (Hv p (f p) Hp N2 N1); auto. congruence. }
      split.
      + rewrite (U s 115 s') in T; auto; [rewrite (U e 101 e') in T; auto|].
        * intros p Hp Fp. destruct (Hn p 101 Hp eq_refl Fp) as [->| ->]; auto. congruence.
        * intros p Hp Fp. destruct (Hn p 115 Hp eq_refl Fp) as [->| ->]; auto. congruence.
      + intros p Hp N1 N2. rewrite (Fo p Hp N1 N2). destruct (A p Hp) as (A1 & _). apply A1; [auto|]. apply (Hv p (f p)); auto.
  Qed.
End Props.

(** ** Examples and refutations *)
(** bytes: '.' 46, 'x' 120, 's' 115, 'e' 101, '*' 42, 'o' 111 *)
Definition sample : list Z := [10; 32; 46; 115; 120; 13; 10; 9; 10; 46; 46; 10; 101; 42; 119; 120]. (* "\n .sx\r\n\t\n..\ne*wx" *)
Definition read_ (ops : list as_op) (text : list Z) : option (list as_out) := run simple_step (NewWithTiles text) ops.
Example ex_C58_short : short_lines sample /\ rows sample = [[46; 115; 120]; [46; 46]; [101; 42; 119; 120]] /\ width (rows sample) = 4.
Proof. split; [|split; reflexivity]. intros l. cbn. intros H. repeat destruct H as [<-|H]; cbn; try lia. Qed.
Example ex_C58_new : read_ [AGetDimension; AGetTarget; AGetAttr 2 0; AGetAttr 1 0; AGetAttr 2 2; AGetAttr 3 1; AGetTiles; AGetTilesWithTarget; ASearch; AGetSinglePathTiles] sample =
  Some [ATarget (Some (4, 3)) None; ATarget (Some (1, 0)) (Some (0, 2)); ANum 120; ANum 46; ANum 119; ANum 46;
    AText [10; 46; 46; 120; 46; 10; 46; 46; 46; 46; 10; 46; 46; 119; 120; 10]; AText [10; 46; 115; 120; 46; 10; 46; 46; 46; 46; 10; 101; 46; 119; 120; 10]; ABool true;
    AText [10; 111; 115; 120; 46; 10; 111; 46; 46; 46; 10; 101; 46; 119; 120; 10]].
Proof. vm_compute. reflexivity. Qed.
(** letters right of the grid are ignored, '*' and missing letters change nothing, the target moves *)
Example ex_C58_set : started 2 2 [ASetAttr 0 1 120; ASetTarget 1 1 0 0; ASetStringTiles [119; 32; 115; 120; 10; 10; 42]; AGetTiles; AGetTarget]
  = Some [AUnit; AUnit; AUnit; AText [10; 119; 46; 10; 120; 46; 10]; ATarget (Some (1, 0)) (Some (0, 0))].
Proof. vm_compute. reflexivity. Qed.
(** the hypothesis of C58_both_ways_partial *)
Example ex_C58_both : let text := [46; 115; 10; 10; 120; 101; 10] in short_lines text /\ (forall c, In c text -> c <> 12 /\ c <> 13) /\
  (forall l, In l (pieces text) -> l = [] \/ exists c, In c l /\ white c = false).
Proof.
  cbn zeta. split; [|split].
  - intros l. cbn. intros H. repeat destruct H as [<-|H]; cbn; try lia.
  - intros c. cbn. intros H. repeat destruct H as [<-|H]; try (split; discriminate). destruct H.
  - intros l. cbn. intros H. repeat destruct H as [<-|H]; auto; try (right; eexists; split; [left; reflexivity|reflexivity]). destruct H.
Qed.
(** A line of 4097 letters becomes two rows. *)
Theorem C58_long_line_refuted : exists text, pieces text = [text] /\ rows text = [text] /\ width (rows text) = 4097 /\
  read_ [AGetDimension] text = Some [ATarget (Some (4096, 2)) None].
Proof. exists (repeat 46 (Z.to_nat 4097)). split; [|split; [|split]]; vm_compute; reflexivity. Qed.
(** A line of blanks is no row for NewWithTiles, but one for SetStringTiles: a new grid of the size NewWithTiles gives is too
    small for the same text. *)
Theorem C58_blank_line_refuted : exists text, short_lines text /\ read_ [AGetDimension; AGetTiles] text = Some [ATarget (Some (2, 2)) None; AText [10; 46; 120; 10; 120; 46; 10]] /\
  started 2 2 [ASetStringTiles text; AGetTiles] = Some [APanic; AText [10; 46; 120; 10; 46; 46; 10]].
Proof. exists [46; 120; 10; 32; 32; 10; 120; 46]. split; [|split; vm_compute; reflexivity]. intros l. cbn. intros H. repeat destruct H as [<-|H]; cbn; try lia. Qed.
(** The picture of a grid of 4097 columns and one row is read as a grid of two rows. *)
Theorem C59_wide_refuted : exists g t, built 4097 1 [] = Some g /\ simple_step g AGetTiles = Some (g, AText t) /\ read_ [AGetDimension] t = Some [ATarget (Some (4096, 2)) None].
Proof. eexists. eexists. split; [reflexivity|]. split; [cbn [as_step]; reflexivity|]. vm_compute. reflexivity. Qed.
(** off the grid, and no target *)
Example ex_C59_panics : started 2 1 [AGetPathTiles []; ASetTarget 0 0 2 0; AGetTilesWithTarget; AGetPathTiles [(0, 0)]; ASetTarget 0 0 1 0; AGetPathTiles [(0, 1)]; AGetPathTiles [(0, 0); (1, 0)]; AGetTilesWithTarget]
  = Some [APanic; AUnit; APanic; APanic; AUnit; APanic; AText [10; 115; 101; 10]; AText [10; 115; 101; 10]].
Proof. vm_compute. reflexivity. Qed.
(** the hypotheses of the read-again theorems: a grid with a wall and a target, all letters visible *)
Example ex_C59_again : exists g, built 3 2 [ASetAttr 1 0 120; ASetAttr 2 1 119; ASetTarget 0 0 2 0] = Some g /\ has_size SimpleCost SimpleWeight (fun ps => ps) g 3 2 /\
  has_target SimpleCost SimpleWeight (fun ps => ps) g (Some (0, 0)) (Some (2, 0)) /\
  (forall p a, within 3 2 p -> seen_attr SimpleCost SimpleWeight (fun ps => ps) g p = Some (ANum a) -> white a = false /\ special a = false).
Proof.
  eexists. split; [reflexivity|]. split; [reflexivity|]. split; [reflexivity|]. intros [x y] a (H1 & H2). cbn [fst snd] in *.
  assert (Hx : x = 0 \/ x = 1 \/ x = 2) by lia. assert (Hy : y = 0 \/ y = 1) by lia. destruct Hx as [->|[->| ->]], Hy as [->| ->]; cbn; intros E; injection E as <-; auto.
Qed.

Print Assumptions C58_new_with_tiles.
Print Assumptions C58_set_string_tiles.
Print Assumptions C58_both_ways_partial.
Print Assumptions C58_long_line_refuted.
Print Assumptions C58_blank_line_refuted.
Print Assumptions C59_tiles.
Print Assumptions C59_tiles_with_target.
Print Assumptions C59_path_tiles.
Print Assumptions C59_single_path_tiles.
Print Assumptions C59_found_path.
Print Assumptions C59_read_again_partial.
Print Assumptions C59_read_target_again_partial.
Print Assumptions C59_wide_refuted.
